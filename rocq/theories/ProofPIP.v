(** Soundness of the classic bounds of the global priority inheritance protocol. *)
From Coq Require Import NArith ZArith List Bool Lia Arith.
From Verif Require Import Base ModelLocking ModelPIP SpecLocking SpecQueue SpecDPCP SpecFMLPPlus SpecPIP ProofLocking ProofSpin ProofQueue ProofBlame ProofLockingMono ProofGlobal ProofMSRP.
Import ListNotations.
Open Scope Z_scope.

Import Base.

(** * Sums *)
Definition cnt (p : Z -> bool) (l : list Z) : Z := zsum (map (fun t => b2z (p t)) l).

Lemma cnt_length p l : Z.of_nat (length (filter p l)) = cnt p l.
Proof. unfold cnt. induction l as [|t l IH]; [reflexivity|]. cbn [filter map Base.zsum]. rewrite <- IH. destruct (p t); cbn [length b2z]; lia. Qed.

Lemma instants_cnt p lo hi : instants p lo hi = cnt p (zrange lo hi).
Proof. apply cnt_length. Qed.

Lemma cnt_nonneg p l : 0 <= cnt p l.
Proof. rewrite <- cnt_length. lia. Qed.

Lemma zs_swap {A B} (f : A -> B -> Z) (l : list A) (m : list B) :
  zsum (map (fun a => zsum (map (f a) m)) l) = zsum (map (fun b => zsum (map (fun a => f a b) l)) m).
Proof.
  induction l as [|a l IH]; cbn [map Base.zsum].
  - symmetry. induction m as [|b m IHm]; [reflexivity|]. cbn [map Base.zsum]. lia.
  - rewrite IH, <- zsum_map_add. reflexivity.
Qed.

Lemma zs_const {A} (c : Z) (l : list A) : zsum (map (fun _ => c) l) = c * Z.of_nat (length l).
Proof. apply zsum_map_const. Qed.

Lemma cnt_le p q l : (forall t, In t l -> p t = true -> q t = true) -> cnt p l <= cnt q l.
Proof. intros H. unfold cnt. apply zsum_map_le. intros t Ht. specialize (H t Ht). destruct (p t); [rewrite H by reflexivity; cbn; lia|apply b2z_range]. Qed.

Lemma cnt_exists {A} (p : A -> Z -> bool) (xs : list A) l : cnt (fun t => existsb (fun x => p x t) xs) l <= zsum (map (fun x => cnt (p x) l) xs).
Proof.
  unfold cnt. rewrite zs_swap. apply zsum_map_le. intros t _. induction xs as [|x xs IH]; [cbn; lia|]. cbn [existsb map Base.zsum].
  destruct (p x t); cbn [orb b2z]; [|lia]. assert (0 <= zsum (map (fun a => b2z (p a t)) xs)); [|lia].
  apply zsum_nonneg. intros y Hy. apply in_map_iff in Hy. destruct Hy as [z [<- _]]. apply b2z_range.
Qed.

Lemma cnt_span p lo hi lo' hi' : (forall t, lo <= t < hi -> p t = true -> lo' <= t < hi') -> cnt p (zrange lo hi) <= Z.max 0 (hi' - lo').
Proof.
  intros H. rewrite <- cnt_length. eapply Z.le_trans; [apply (instants_filter p lo' hi')|].
  - unfold zrange. apply FinFun.Injective_map_NoDup; [intros x y E; lia|apply seq_NoDup].
  - intros t Ht. apply in_zrange in Ht. apply H. exact Ht.
  - rewrite <- instants_all. rewrite !instants_cnt. apply cnt_le. reflexivity.
Qed.

Lemma zrange_nodup a b : NoDup (zrange a b).
Proof. unfold zrange. apply FinFun.Injective_map_NoDup; [intros x y E; lia|apply seq_NoDup]. Qed.

Lemma inj_length {A B} (R : A -> B -> Prop) (l : list A) : forall l' : list B, NoDup l -> (forall x, In x l -> exists y, In y l' /\ R x y) ->
  (forall x x' y, R x y -> R x' y -> x = x') -> (length l <= length l')%nat.
Proof.
  induction l as [|x l IH]; intros l' ND H INJ; [cbn; lia|]. inversion ND as [|a b NI ND']; subst.
  destruct (H x (or_introl eq_refl)) as [y [Hy RY]]. apply in_split in Hy. destruct Hy as [u [v ->]].
  specialize (IH (u ++ v) ND'). rewrite app_length in *. cbn [length]. enough (length l <= length u + length v)%nat by lia.
  apply IH; [|exact INJ]. intros z Hz. destruct (H z (or_intror Hz)) as [w [Hw RW]]. exists w. split; [|exact RW].
  apply in_app_iff in Hw. apply in_app_iff. destruct Hw as [Hw|[<-|Hw]]; auto. exfalso. apply NI. rewrite (INJ x z y RY RW). exact Hz.
Qed.

Lemma few_below (p : N) (l : list N) : NoDup l -> (forall x, In x l -> (x < p)%N) -> (N.of_nat (length l) <= p)%N.
Proof.
  intros ND H. enough (length l <= N.to_nat p)%nat by lia. rewrite <- (seq_length (N.to_nat p) 0).
  apply (inj_length (fun x y => N.to_nat x = y)); [exact ND| |intros; lia]. intros x Hx. specialize (H x Hx). exists (N.to_nat x). split; [apply in_seq; lia|reflexivity].
Qed.

(** * The functions of the analysis as sums *)
Definition zN (x : N) : Z := Z.of_N x.

Lemma fold_sum {A} (f : A -> N) l : forall b, Z.of_N (fold_left (fun s a => s + f a)%N l b) = Z.of_N b + zsum (map (fun a => Z.of_N (f a)) l).
Proof. induction l as [|x l IH]; intros b; cbn [fold_left map Base.zsum]; [lia|]. rewrite IH. lia. Qed.

Lemma fold_sum_if {A} (c : A -> bool) (f : A -> N) l : forall b,
  Z.of_N (fold_left (fun s a => if c a then s + f a else s)%N l b) = Z.of_N b + zsum (map (fun a => if c a then Z.of_N (f a) else 0) l).
Proof. induction l as [|x l IH]; intros b; cbn [fold_left map Base.zsum]; [lia|]. rewrite IH. destruct (c x); lia. Qed.

(** the time that requests for the resources in [S] take *)
Definition section_time (S : nat -> bool) (u : taskinfo) : Z := zsum (map (fun q => if S (q_res q) then Z.of_N (q_len q * q_num q) else 0) (ti_requests u)).

Definition used_by (tsk : taskinfo) (r : nat) : bool := existsb (fun q => Nat.eqb (q_res q) r) (ti_requests tsk).
Definition high_ceiling (info : list taskinfo) (p : N) (r : nat) : bool := (nth r (get_priority_ceilings info) UNLIMITED <? p)%N.

Lemma section_time_nonneg S u : 0 <= section_time S u.
Proof. apply zsum_nonneg. intros x Hx. apply in_map_iff in Hx. destruct Hx as [q [<- _]]. destruct (S (q_res q)); lia. Qed.

Lemma section_time_all S u : section_time S u <= Z.of_N (fold_right N.add 0%N (map (fun q => q_num q * q_len q)%N (ti_requests u))).
Proof.
  unfold section_time. induction (ti_requests u) as [|q l IH]; [cbn; lia|]. cbn [map Base.zsum fold_right]. rewrite (N.mul_comm (q_num q)). destruct (S (q_res q)); lia.
Qed.

Lemma common_eq tsk u : NoDup (map q_res (ti_requests tsk)) -> Z.of_N (common_sr_time tsk u) = section_time (used_by tsk) u.
Proof.
  intros ND. unfold common_sr_time, section_time, used_by.
  assert (G : forall own b, Z.of_N (fold_left (fun sum request => fold_left (fun sum tx_req => if Nat.eqb (q_res request) (q_res tx_req) then (sum + q_len tx_req * q_num tx_req)%N else sum) (ti_requests u) sum) own b)
    = Z.of_N b + zsum (map (fun q => zsum (map (fun x => if Nat.eqb (q_res q) (q_res x) then Z.of_N (q_len x * q_num x) else 0) (ti_requests u))) own)).
  { induction own as [|q own IH]; intros b; cbn [fold_left map Base.zsum]; [lia|]. rewrite IH, fold_sum_if. lia. }
  rewrite G, zs_swap. cbn [Z.of_N]. rewrite Z.add_0_l. apply zsum_map_ext. intros x _.
  induction (ti_requests tsk) as [|q l IH]; [reflexivity|]. cbn [map] in ND. inversion ND as [|a b NI ND']; subst. cbn [map Base.zsum existsb]. rewrite (IH ND').
  destruct (Nat.eqb_spec (q_res q) (q_res x)) as [E|NE]; [|cbn [orb]; lia]. cbn [orb].
  replace (existsb (fun q0 => Nat.eqb (q_res q0) (q_res x)) l) with false; [lia|]. symmetry. apply not_true_iff_false. intros X. apply existsb_exists in X.
  destruct X as [y [Hy E']]. apply Nat.eqb_eq in E'. apply NI. rewrite E, <- E'. apply in_map. exact Hy.
Qed.

Lemma high_time_eq info tsk u : Z.of_N (lower_priority_with_higher_ceiling_time tsk u (get_priority_ceilings info)) = section_time (high_ceiling info (ti_prio tsk)) u.
Proof. unfold lower_priority_with_higher_ceiling_time, section_time, high_ceiling. rewrite fold_sum_if. reflexivity. Qed.

Lemma max_lower_ge info tsk u q : In u info -> (ti_prio tsk < ti_prio u)%N -> In q (ti_requests u) -> (q_len q <= max_lower_length info tsk (q_res q))%N.
Proof.
  intros HU HP HQ. unfold max_lower_length.
  assert (M1 : forall r l mx, (mx <= fold_left (fun mx req => if Nat.eqb r (q_res req) && (mx <? q_len req) then q_len req else mx)%N l mx)%N).
  { intros r. induction l as [|x l IH]; intros mx; cbn [fold_left]; [lia|]. eapply N.le_trans; [|apply IH]. destruct (Nat.eqb r (q_res x)); cbn [andb]; [|lia]. destruct (N.ltb_spec mx (q_len x)); lia. }
  assert (M2 : forall r l mx, (mx <= fold_left (fun mx tx => fold_left (fun mx req => if Nat.eqb r (q_res req) && (mx <? q_len req) then q_len req else mx)%N (ti_requests tx) mx) l mx)%N).
  { intros r. induction l as [|x l IH]; intros mx; cbn [fold_left]; [lia|]. eapply N.le_trans; [|apply IH]. apply M1. }
  assert (HL : In u (lower_tasks info tsk)) by (apply filter_In; split; [exact HU|apply N.ltb_lt; exact HP]).
  revert HL. generalize 0%N. induction (lower_tasks info tsk) as [|x l IH]; intros mx HL; [destruct HL|]. destruct HL as [->|HL]; cbn [fold_left]; [|apply IH; exact HL].
  eapply N.le_trans; [|apply M2]. clear - HQ M1. revert mx. induction (ti_requests u) as [|x l IH]; intros mx; [destruct HQ|]. destruct HQ as [->|HQ]; cbn [fold_left]; [|apply IH; exact HQ].
  eapply N.le_trans; [|apply M1]. rewrite Nat.eqb_refl. cbn [andb]. destruct (N.ltb_spec mx (q_len q)); lia.
Qed.

(** the workload is the one of the window lemma unless numbers overflow *)
Lemma W_value t u x : (0 < ti_period u)%N -> (x <= t + ti_deadline u)%N -> (t + ti_deadline u < 2 ^ 32)%N ->
  Z.of_N (W_l_tx t u x) = wl (Z.of_N x) (Z.of_N (ti_period u)) (Z.of_N t + Z.of_N (ti_deadline u) - Z.of_N x).
Proof.
  intros HT HX HF. assert (S : sub64 (t + ti_deadline u) x = (t + ti_deadline u - x)%N).
  { unfold sub64. rewrite Z.mod_small by lia. lia. }
  set (y := (t + ti_deadline u - x)%N) in *. assert (NV : N_l_tx t u x = (y / ti_period u)%N).
  { unfold N_l_tx, u32. rewrite S. apply N.mod_small. pose proof (N.div_le_upper_bound y (ti_period u) y ltac:(lia) ltac:(nia)). lia. }
  assert (Y : (y + x = t + ti_deadline u)%N) by (unfold y; lia). clearbody y.
  unfold W_l_tx. rewrite NV. clear S NV. set (Q := (y / ti_period u)%N) in *. set (PQ := (ti_period u * Q)%N) in *. pose proof (N.div_mod' y (ti_period u)) as DM. fold Q PQ in DM. pose proof (N.mod_lt y (ti_period u) ltac:(lia)).
  assert (S2 : sub64 (t + ti_deadline u) (x + PQ) = (y mod ti_period u)%N).
  { clearbody PQ. clear Q. unfold sub64. set (MD := (y mod ti_period u)%N) in *. clearbody MD. change (2 ^ 32)%N with 4294967296%N in HF. change (2 ^ 64) with 18446744073709551616. rewrite Z.mod_small by lia. lia. }
  rewrite S2. unfold wl. destruct (Z.ltb_spec (Z.of_N t + Z.of_N (ti_deadline u) - Z.of_N x) 0); [lia|].
  replace (Z.of_N t + Z.of_N (ti_deadline u) - Z.of_N x) with (Z.of_N y) by lia.
  rewrite N2Z.inj_add, N2Z.inj_mul, N2Z.inj_min. unfold Q. rewrite N2Z.inj_div, N2Z.inj_mod. lia.
Qed.
