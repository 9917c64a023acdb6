(** Soundness of the blocking bounds for replicated resources. *)
From Coq Require Import NArith ZArith List Bool Sorted Permutation Lia Arith.
From Verif Require Import ModelLocking SpecLocking SpecQueue ProofLocking ProofSpin ProofLockingMono ProofQueue.
Import ListNotations.
Open Scope N_scope.

(** * The two-level bound *)
Definition in_c (c : nat) (t : taskinfo) : bool := Nat.eqb (ti_cluster t) c.

Lemma kx_psafe info tsk res interval (tot src : nat -> N) cap cs (sels : nat -> list (nat * N)) : wf_info info ->
  (forall c, In c cs -> pselection info (in_c c) tsk res interval (tot c) (src c) (sels c)) ->
  sumN (map (fun c => N.of_nat (length (sels c))) cs) <= cap ->
  sumN (map (fun c => total_length (sels c)) cs) <= i_len (bb_limited (sort_limited (concat (map (fun c => add_blocking interval (src c) tsk (contention info c res) (tot c)) cs))) cap inter0).
Proof.
  intros W HS HC. rewrite bb_limited_greedy, iadd_0_l. set (L := concat _).
  assert (SS : StronglySorted (fun a b : rbound * N => rb_len (fst b) <= rb_len (fst a)) (sort_limited L)) by apply (sort_len_sorted (fun p : rbound * N => rb_len (fst p))).
  assert (UB : exists u, forall p, In p (sort_limited L) -> rb_len (fst p) <= u).
  { generalize (sort_limited L). induction l as [|p r [u IH]]; [exists 0; intros p []|]. exists (N.max u (rb_len (fst p))). intros q [<-|Hq]; [lia|]. specialize (IH q Hq). lia. }
  destruct UB as [u Hu]. destruct (threshold _ SS cap u Hu) as [th [_ ->]].
  rewrite <- (value_perm _ _ _ (sort_len_perm (fun p : rbound * N => rb_len (fst p)) L)).
  assert (G : sumN (map (fun c => total_length (sels c)) cs) <= value (fun x => x - th) L + th * sumN (map (fun c => N.of_nat (length (sels c))) cs)); [|nia].
  clear HC SS Hu. unfold L. clear L. induction cs as [|c r IH]; [cbn; lia|]. cbn [map concat]. rewrite value_app. unfold sumN in *. cbn [map fold_right].
  specialize (IH (fun x Hx => HS x (or_intror Hx))).
  pose proof (pselection_shorten info (in_c c) tsk res interval (tot c) (src c) (sels c) th W (HS c (or_introl eq_refl))) as S. change (pcontention info (in_c c) res) with (contention info c res) in S.
  pose proof (shorten_total th (sels c)) as T. nia.
Qed.

Lemma np_fifo_contention_eq info tsk procs q issued irq :
  np_fifo_per_resource_contention tsk (cluster_contention info) procs q issued irq =
  concat (map (fun c => add_blocking (ti_response tsk) issued (ti_id tsk) (contention info c q) (climit procs issued irq (ti_cluster tsk) c)) (seq 0 (num_clusters info))).
Proof.
  unfold np_fifo_per_resource_contention, contention_from_all_clusters, np_fifo_limits.
  rewrite (combine_seq []), cluster_contention_length, map_map. f_equal. apply map_ext. intros c. cbv zeta.
  assert (E : (if match irq with Some i0 => Nat.eqb c i0 | None => false end then procs - 1 else procs) = available procs irq c).
  { unfold available. destruct irq as [i0|]; [|lia]. rewrite (Nat.eqb_sym i0 c). destruct (Nat.eqb c i0); lia. }
  rewrite E. clear E.
  assert (E : issued * (if negb (available procs irq c =? 0) && Nat.eqb (ti_cluster tsk) c then available procs irq c - 1 else available procs irq c) = climit procs issued irq (ti_cluster tsk) c).
  { unfold climit. f_equal. destruct (N.eqb_spec (available procs irq c) 0) as [Z|Z]; cbn [negb andb]; [destruct (Nat.eqb _ _); lia|reflexivity]. }
  rewrite E. clear E. destruct (Nat.ltb_spec q (length (nth c (cluster_contention info) []))) as [L|L].
  - rewrite cluster_contention_nth. reflexivity.
  - assert (E : contention info c q = []) by (rewrite <- cluster_contention_nth; apply nth_overflow; exact L). rewrite E. reflexivity.
Qed.

(** * Processors *)
Definition num_cpus (info : list taskinfo) (procs : N) (irq : option nat) : N :=
  N.of_nat (num_clusters info) * procs - match irq with Some _ => 1 | None => 0 end.

Lemma sum_available procs irq n : match irq with Some i => (i < n)%nat | None => True end -> 1 <= procs ->
  sumN (map (available procs irq) (seq 0 n)) = N.of_nat n * procs - match irq with Some _ => 1 | None => 0 end.
Proof.
  intros Hi Hp. assert (G : forall m, sumN (map (available procs irq) (seq 0 m)) = N.of_nat m * procs - match irq with Some i => if Nat.ltb i m then 1 else 0 | None => 0 end).
  { induction m as [|m IH]; [cbn; lia|]. rewrite seq_S, map_app, sumN_app, IH. cbn [map plus]. unfold sumN; cbn [fold_right].
    unfold available. destruct irq as [i|]; [|lia]. destruct (Nat.eqb_spec i m) as [E|E]; destruct (Nat.ltb_spec i m), (Nat.ltb_spec i (S m)); try lia; nia. }
  rewrite G. destruct irq as [i|]; [|reflexivity]. destruct (Nat.ltb_spec i n); lia.
Qed.

Lemma sum_le (f g : nat -> N) l : (forall c, In c l -> f c <= g c) -> sumN (map f l) <= sumN (map g l).
Proof. induction l as [|c r IH]; intros H; [cbn; lia|]. cbn [map sumN fold_right]. specialize (IH (fun x Hx => H x (or_intror Hx))). specialize (H c (or_introl eq_refl)). unfold sumN in IH. lia. Qed.

Lemma sum_lt (f g : nat -> N) l x : (forall c, In c l -> f c <= g c) -> In x l -> f x < g x -> sumN (map f l) < sumN (map g l).
Proof.
  induction l as [|c r IH]; intros H Hx L; [destruct Hx|]. cbn [map sumN fold_right]. pose proof (sum_le f g r (fun y Hy => H y (or_intror Hy))) as S. unfold sumN in S.
  pose proof (H c (or_introl eq_refl)) as Hc. destruct Hx as [->|Hx]; [lia|]. specialize (IH (fun y Hy => H y (or_intror Hy)) Hx L). unfold sumN in IH. lia.
Qed.

(** a list split by a bounded key *)
Lemma length_split {A} (g : A -> nat) n l : (forall a, In a l -> (g a < n)%nat) -> N.of_nat (length l) = sumN (map (fun c => N.of_nat (length (filter (fun a => Nat.eqb (g a) c) l))) (seq 0 n)).
Proof.
  induction l as [|a r IH]; intros H.
  - clear H. induction (seq 0 n) as [|c s IHs]; [reflexivity|]. cbn [map sumN fold_right]. unfold sumN in IHs. rewrite <- IHs. reflexivity.
  - specialize (IH (fun x Hx => H x (or_intror Hx))). specialize (H a (or_introl eq_refl)). cbn [length]. rewrite Nat2N.inj_succ, IH. clear IH.
    assert (G : forall s, NoDup s -> sumN (map (fun c => N.of_nat (length (filter (fun a0 => Nat.eqb (g a0) c) (a :: r)))) s) =
      (if existsb (Nat.eqb (g a)) s then 1 else 0) + sumN (map (fun c => N.of_nat (length (filter (fun a0 => Nat.eqb (g a0) c) r))) s)).
    { induction s as [|c s IHs]; intros ND; [reflexivity|]. inversion ND as [|x y NI ND']; subst. specialize (IHs ND'). unfold sumN in *. cbn [map existsb fold_right]. rewrite IHs.
      cbn [filter]. destruct (Nat.eqb_spec (g a) c) as [E|E]; cbn [orb length].
      - replace (existsb (Nat.eqb (g a)) s) with false; [lia|]. symmetry. apply not_true_is_false. intros X. apply existsb_exists in X. destruct X as [y [Y1 Y2]].
        apply Nat.eqb_eq in Y2. apply NI. congruence.
      - lia. }
    rewrite (G _ (seq_NoDup n 0)). replace (existsb (Nat.eqb (g a)) (seq 0 n)) with true; [lia|].
    symmetry. apply existsb_exists. exists (g a). split; [apply in_seq; lia|apply Nat.eqb_refl].
Qed.

(** pigeonhole: some key below [k] is used by at most a k-th of the elements *)
Lemma pigeonhole {A} (g : A -> N) (l : list A) k : 0 < k -> exists r, r < k /\ k * N.of_nat (length (filter (fun a => g a =? r) l)) <= N.of_nat (length l).
Proof.
  intros Hk. destruct (existsb (fun r => k * N.of_nat (length (filter (fun a => g a =? N.of_nat r) l)) <=? N.of_nat (length l)) (seq 0 (N.to_nat k))) eqn:E.
  - apply existsb_exists in E. destruct E as [r [E1 E2]]. apply in_seq in E1. apply N.leb_le in E2. exists (N.of_nat r). split; [lia|exact E2].
  - exfalso. assert (X : forall r, (r < N.to_nat k)%nat -> N.of_nat (length l) < k * N.of_nat (length (filter (fun a => g a =? N.of_nat r) l))).
    { intros r Hr. destruct (N.ltb_spec (N.of_nat (length l)) (k * N.of_nat (length (filter (fun a => g a =? N.of_nat r) l)))) as [Y|Y]; [exact Y|]. apply not_true_iff_false in E. exfalso. apply E.
      apply existsb_exists. exists r. split; [apply in_seq; lia|apply N.leb_le; exact Y]. }
    clear E. assert (S : forall m, (m <= N.to_nat k)%nat -> sumN (map (fun r => N.of_nat (length (filter (fun a => g a =? N.of_nat r) l))) (seq 0 m)) <= N.of_nat (length l) /\
        N.of_nat m * N.of_nat (length l) + N.of_nat m <= k * sumN (map (fun r => N.of_nat (length (filter (fun a => g a =? N.of_nat r) l))) (seq 0 m))).
    { intros m Hm. split.
      - clear. assert (G : forall m, sumN (map (fun r => N.of_nat (length (filter (fun a => g a =? N.of_nat r) l))) (seq 0 m)) = N.of_nat (length (filter (fun a => g a <? N.of_nat m) l))).
        { induction m0 as [|m0 IH]; [cbn; induction l as [|a r IHl]; [reflexivity|]; cbn; destruct (N.ltb_spec (g a) 0); [lia|exact IHl]|].
          rewrite seq_S, map_app, sumN_app, IH. cbn [map plus]. unfold sumN; cbn [fold_right]. clear. induction l as [|a r IH]; [reflexivity|]. cbn [filter].
          destruct (N.ltb_spec (g a) (N.of_nat m0)), (N.eqb_spec (g a) (N.of_nat m0)), (N.ltb_spec (g a) (N.of_nat (S m0))); cbn [length] in *; lia. }
        rewrite G. assert (length (filter (fun a => (g a <? N.of_nat m)%N) l) <= length l)%nat; [|lia]. clear. induction l as [|a r IH]; [cbn; lia|]. cbn. destruct (g a <? N.of_nat m); cbn; lia.
      - induction m as [|m IH]; [cbn; lia|]. rewrite seq_S, map_app, sumN_app. cbn [map plus]. unfold sumN at 2; cbn [fold_right]. specialize (IH ltac:(lia)). specialize (X m ltac:(lia)). nia. }
    destruct (S (N.to_nat k) ltac:(lia)) as [S1 S2]. rewrite N2Nat.id in S2. nia.
Qed.

(** * Executions *)
Open Scope Z_scope.

Section KX.
Variables (info : list taskinfo) (procs : N) (irq : option nat) (k : N) (rel comp : nat -> nat -> Z) (res : nat) (rep : creq -> N) (tr : list creq).
Variable W : wf_info info.
Variable SJ : forall t, In t info -> sporadic_jobs (ti_period t) (ti_response t) (rel (ti_id t)) (comp (ti_id t)).
Variable KX : kx_execution info procs irq k rel comp res rep tr.
Variable Hk : (0 < k)%N.
Variable Hirq : match irq with Some i => (i < num_clusters info)%nat | None => True end.
Variables (tsk : taskinfo) (q : reqspec) (j : nat).
Variable Htsk : In tsk info.
Let LR := kx_requests _ _ _ _ _ _ _ _ _ KX.

Definition outstanding (b : creq) : list creq := filter (fun a => fifo_blocks a b) tr.

Lemma kx_facts a b : In a tr -> In b tr -> fifo_blocks a b = true -> cr_issue a <= cr_issue b < cr_end a /\ cr_start a < cr_start b.
Proof.
  intros Ha Hb X. apply andb_true_iff in X. destruct X as [X1 X2]. apply Z.ltb_lt in X1, X2.
  pose proof (lr_times _ _ _ _ _ _ LR a Ha). pose proof (lr_times _ _ _ _ _ _ LR b Hb).
  destruct (fop_cases _ _ a b (kx_fifo _ _ _ _ _ _ _ _ _ KX) Ha Hb) as [E|[E|E]]; [subst; lia|lia|lia].
Qed.

Lemma kx_not_apart a b : In a tr -> In b tr -> fifo_blocks a b = true -> ~ apart a b.
Proof. intros Ha Hb X AP. destruct (kx_facts a b Ha Hb X). pose proof (lr_times _ _ _ _ _ _ LR a Ha). pose proof (lr_times _ _ _ _ _ _ LR b Hb). unfold apart in AP. lia. Qed.

Lemma kx_not_mine a b : In a tr -> In b tr -> fifo_blocks a b = true -> cr_task a <> cr_task b.
Proof.
  intros Ha Hb X E. pose proof (kx_not_apart a b Ha Hb X) as NA. destruct (kx_facts a b Ha Hb X) as [_ F].
  destruct (fop_cases _ _ a b (lr_sequential _ _ _ _ _ _ LR) Ha Hb) as [E'|[E'|E']].
  - subst. lia.
  - exact (NA (E' E)).
  - apply NA. specialize (E' ltac:(congruence)). unfold apart in *. lia.
Qed.

Lemma kx_tasks b : In b tr -> NoDup (map cr_task (outstanding b)).
Proof.
  intros Hb. apply fop_apart; [apply (lr_sequential _ _ _ _ _ _ LR)|]. intros x y Hx Hy Px Py AP.
  destruct (kx_facts x b Hx Hb Px), (kx_facts y b Hy Hb Py). unfold apart in AP. lia.
Qed.

Lemma kx_cluster_count b c : In b tr -> cr_task b = ti_id tsk ->
  (N.of_nat (length (filter (of_task info (in_c c)) (outstanding b))) <= (if Nat.eqb (ti_cluster tsk) c then available procs irq c - 1 else available procs irq c))%N.
Proof.
  intros Hb Tb. set (M := filter (of_task info (in_c c)) (outstanding b)).
  assert (MI : forall a, In a M -> In a tr /\ fifo_blocks a b = true /\ exists t, nth_error info (cr_task a) = Some t /\ ti_cluster t = c).
  { intros a Ha. apply filter_In in Ha. destruct Ha as [Ha Hc]. apply filter_In in Ha. destruct Ha as [Ha X]. split; [exact Ha|]. split; [exact X|].
    unfold of_task in Hc. destruct (nth_error info (cr_task a)) as [t|]; [|discriminate]. exists t. split; [reflexivity|]. apply Nat.eqb_eq. exact Hc. }
  assert (ND : NoDup (map cr_cpu M)).
  { assert (F : ForallOrdPairs (fun a a' => cr_cpu a <> cr_cpu a') M).
    { assert (F0 : ForallOrdPairs (fun a b0 => forall t u, nth_error info (cr_task a) = Some t -> nth_error info (cr_task b0) = Some u -> ti_cluster t = ti_cluster u -> cr_cpu a = cr_cpu b0 -> apart a b0) M).
      { unfold M, outstanding. apply fop_filter, fop_filter. apply (kx_donation _ _ _ _ _ _ _ _ _ KX). }
      revert F0. apply fop_impl_in. intros x y Hx Hy P E. destruct (MI x Hx) as [Ix [Bx [t [T1 T2]]]]. destruct (MI y Hy) as [Iy [By [u [U1 U2]]]].
      specialize (P t u T1 U1 ltac:(congruence) E). destruct (kx_facts x b Ix Hb Bx), (kx_facts y b Iy Hb By). unfold apart in P. lia. }
    clear - F. induction F as [|x r F P IH]; cbn; constructor; [|exact IH]. intros X. apply in_map_iff in X. destruct X as [y [E Y]]. rewrite Forall_forall in F. apply (F y Y). congruence. }
  assert (LT : forall x, In x (map cr_cpu M) -> (N.of_nat x < available procs irq c)%N).
  { intros x Hx. apply in_map_iff in Hx. destruct Hx as [a [<- Ha]]. destruct (MI a Ha) as [Ia [_ [t [T1 T2]]]]. rewrite <- T2. apply (kx_cpu _ _ _ _ _ _ _ _ _ KX a t Ia T1). }
  pose proof (wf_id info tsk W Htsk) as Nt. rewrite <- (map_length cr_cpu M). destruct (Nat.eqb_spec (ti_cluster tsk) c) as [Ec|Ec].
  - apply (nodup_lt_length_avoid _ _ (cr_cpu b) ND).
    + intros x Hx. split; [apply LT; exact Hx|]. apply in_map_iff in Hx. destruct Hx as [a [<- Ha]]. destruct (MI a Ha) as [Ia [Ba [t [T1 T2]]]]. intros E.
      pose proof (kx_not_apart a b Ia Hb Ba) as NA. destruct (kx_facts a b Ia Hb Ba) as [_ F].
      destruct (fop_cases _ _ a b (kx_donation _ _ _ _ _ _ _ _ _ KX) Ia Hb) as [E'|[E'|E']].
      * subst. lia.
      * apply NA. apply (E' t tsk T1); [rewrite Tb; exact Nt|congruence|exact E].
      * assert (AP : apart b a) by (apply (E' tsk t); [rewrite Tb; exact Nt|exact T1|congruence|congruence]). apply NA. unfold apart in *. lia.
    + rewrite <- Ec. apply (kx_cpu _ _ _ _ _ _ _ _ _ KX b tsk Hb). rewrite Tb. exact Nt.
  - apply (nodup_lt_length _ _ ND LT).
Qed.

Definition cl (a : creq) : nat := match nth_error info (cr_task a) with Some t => ti_cluster t | None => 0%nat end.

Lemma cl_lt a : In a tr -> (cl a < num_clusters info)%nat.
Proof. intros Ha. destruct (lr_spec _ _ _ _ _ _ LR a Ha) as [t [x [N1 _]]]. unfold cl. rewrite N1. apply cluster_lt. eapply nth_error_In; exact N1. Qed.

Lemma of_task_cl a c : In a tr -> of_task info (in_c c) a = Nat.eqb (cl a) c.
Proof. intros Ha. destruct (lr_spec _ _ _ _ _ _ LR a Ha) as [t [x [N1 _]]]. unfold of_task, cl, in_c. rewrite N1. reflexivity. Qed.

Lemma filter_ext_in' {A} (p r : A -> bool) l : (forall a, In a l -> p a = r a) -> filter p l = filter r l.
Proof. induction l as [|a l IH]; intros H; [reflexivity|]. cbn. rewrite (H a (or_introl eq_refl)), IH; [reflexivity|]. intros; apply H; right; assumption. Qed.

Lemma kx_outstanding_count b : In b tr -> cr_task b = ti_id tsk -> (N.of_nat (length (outstanding b)) < num_cpus info procs irq)%N.
Proof.
  intros Hb Tb. pose proof (wf_id info tsk W Htsk) as Nt. pose proof (kx_cpu _ _ _ _ _ _ _ _ _ KX b tsk Hb ltac:(rewrite Tb; exact Nt)) as CB.
  assert (Hp : (1 <= procs)%N) by (unfold available in CB; lia).
  unfold num_cpus. rewrite <- (sum_available procs irq (num_clusters info) Hirq Hp).
  rewrite (length_split cl (num_clusters info)).
  2:{ intros a Ha. apply cl_lt. apply filter_In in Ha. apply Ha. }
  assert (EQ : forall c, N.of_nat (length (filter (fun a => Nat.eqb (cl a) c) (outstanding b))) = N.of_nat (length (filter (of_task info (in_c c)) (outstanding b)))).
  { intros c. do 2 f_equal. apply filter_ext_in'. intros a Ha. symmetry. apply of_task_cl. apply filter_In in Ha. apply Ha. }
  apply (sum_lt _ _ _ (ti_cluster tsk)).
  - intros c _. rewrite EQ. pose proof (kx_cluster_count b c Hb Tb) as C. destruct (Nat.eqb _ _); lia.
  - apply in_seq. pose proof (cluster_lt info tsk Htsk). lia.
  - rewrite EQ. pose proof (kx_cluster_count b (ti_cluster tsk) Hb Tb) as C. rewrite Nat.eqb_refl in C. lia.
Qed.

(** the replica that is used by the fewest outstanding requests *)
Definition light (b : creq) (r : nat) : bool := (k * N.of_nat (length (filter (fun a => (rep a =? N.of_nat r)%N) (outstanding b))) <=? N.of_nat (length (outstanding b)))%N.
Definition best (b : creq) : N := match find (light b) (seq 0 (N.to_nat k)) with Some r => N.of_nat r | None => 0%N end.

Lemma best_spec b : (best b < k)%N /\ (k * N.of_nat (length (filter (fun a => rep a =? best b) (outstanding b))) <= N.of_nat (length (outstanding b)))%N.
Proof.
  unfold best. destruct (find (light b) (seq 0 (N.to_nat k))) as [r|] eqn:F.
  - apply find_some in F. destruct F as [F1 F2]. apply in_seq in F1. unfold light in F2. apply N.leb_le in F2. split; [lia|exact F2].
  - exfalso. destruct (pigeonhole rep (outstanding b) k Hk) as [r [R1 R2]]. assert (X := find_none _ _ F (N.to_nat r)). unfold light in X. rewrite N2Nat.id in X.
    apply not_true_iff_false in X; [|apply in_seq; lia]. apply X. apply N.leb_le. exact R2.
Qed.

Definition kx_blocks (a b : creq) : bool := fifo_blocks a b && (rep a =? best b)%N.

Lemma kx_blocks_fifo a b : kx_blocks a b = true -> fifo_blocks a b = true.
Proof. unfold kx_blocks. intros X. apply andb_true_iff in X. apply X. Qed.

Lemma kx_total_once b : In b tr -> cr_task b = ti_id tsk -> (N.of_nat (length (filter (fun a => kx_blocks a b) tr)) <= divide_with_ceil (num_cpus info procs irq) k - 1)%N.
Proof.
  intros Hb Tb. destruct (best_spec b) as [_ B]. pose proof (kx_outstanding_count b Hb Tb) as O. unfold outstanding in B at 1. rewrite filter_filter in B.
  destruct (divide_with_ceil_spec (num_cpus info procs irq) k Hk) as [_ D]. change (fun a => kx_blocks a b) with (fun a => fifo_blocks a b && (rep a =? best b)%N).
  set (n := N.of_nat (length (filter (fun a => fifo_blocks a b && (rep a =? best b)%N) tr))) in *. set (cpus := num_cpus info procs irq) in *. clearbody n cpus.
  set (d := divide_with_ceil cpus k) in *. clearbody d. assert (k * n < d * k)%N by lia. nia.
Qed.

(** a set of requests of one job *)
Variable issued : N.
Variable mine : list creq.
Variable Hmine : forall b, In b mine -> In b tr /\ cr_task b = ti_id tsk /\ cr_job b = j.
Variable Hapart : ForallOrdPairs apart mine.
Variable Hissued : (N.of_nat (length mine) <= issued)%N.

Lemma kx_Hblocks a b : In a tr -> In b mine -> kx_blocks a b = true -> cr_task a <> ti_id tsk /\ cr_start a < cr_start b /\ cr_issue b < cr_end a.
Proof.
  intros Ha Hb X. apply kx_blocks_fifo in X. destruct (Hmine b Hb) as [Ib [Tb _]]. rewrite <- Tb. split; [apply (kx_not_mine a b Ha Ib X)|]. destruct (kx_facts a b Ha Ib X). lia.
Qed.

Let H := hit tr mine kx_blocks.

Lemma kx_pselection c : pselection info (in_c c) (ti_id tsk) res (ti_response tsk) (climit procs issued irq (ti_cluster tsk) c) issued (hit_sel info (fun _ _ => true) tr mine kx_blocks (in_c c)).
Proof.
  apply (hit_pselection info rel comp res (fun _ _ => true) tr W SJ LR tsk j Htsk issued mine Hmine Hissued kx_blocks kx_Hblocks).
  - intros i. replace issued with (issued * 1)%N by lia. apply hit_count; [exact Hissued|]. intros b Hb. destruct (Hmine b Hb) as [Ib _].
    pose proof (nodup_count_1 _ i (kx_tasks b Ib)) as L. unfold outstanding in L. rewrite filter_filter in L.
    pose proof (filter_sub (fun a => kx_blocks a b && (of_task info (in_c c) a && Nat.eqb (cr_task a) i)) (fun a => fifo_blocks a b && Nat.eqb (cr_task a) i) tr) as S.
    assert (S' := S ltac:(intros a _ X; apply andb_true_iff in X; destruct X as [X1 X2]; apply andb_true_iff in X2; destruct X2 as [_ X2]; rewrite X2, (kx_blocks_fifo a b X1); reflexivity)). lia.
  - unfold climit. cbv zeta. apply hit_count; [exact Hissued|]. intros b Hb. destruct (Hmine b Hb) as [Ib [Tb _]].
    pose proof (kx_cluster_count b c Ib Tb) as C. unfold outstanding in C. rewrite filter_filter in C.
    pose proof (filter_sub (fun a => kx_blocks a b && of_task info (in_c c) a) (fun a => fifo_blocks a b && of_task info (in_c c) a) tr) as S.
    assert (S' := S ltac:(intros a _ X; apply andb_true_iff in X; destruct X as [X1 X2]; rewrite X2, (kx_blocks_fifo a b X1); reflexivity)).
    destruct (Nat.eqb _ _); lia.
Qed.

Lemma hit_in_tr a : In a (hit tr mine kx_blocks) -> In a tr.
Proof. unfold hit. intros X. apply filter_In in X. apply X. Qed.

Lemma kx_wait_safe : zsum (map (fun b => cr_start b - cr_issue b) mine) <=
  Z.of_N (i_len (bb_limited (sort_limited (np_fifo_per_resource_contention tsk (cluster_contention info) procs res issued irq)) ((divide_with_ceil (num_cpus info procs irq) k - 1) * issued) inter0)).
Proof.
  pose proof (hit_time info rel comp res (fun _ _ => true) tr LR tsk j mine Hmine Hapart kx_blocks (fun _ _ => true)) as T.
  assert (T' : zsum (map (fun b => cr_start b - cr_issue b) mine) <= zsum (map (fun a => instants (fun _ => true) (cr_start a) (cr_end a)) (hit tr mine kx_blocks))).
  { rewrite (zsum_ext _ (fun b => instants (fun _ => true) (cr_issue b) (cr_start b))).
    - apply T. intros b t Hb Ht _. destruct (Hmine b Hb) as [Ib [Tb _]]. destruct (best_spec b) as [BK _].
      destruct (kx_busy _ _ _ _ _ _ _ _ _ KX b t (best b) Ib Ht BK) as [a [A1 [A2 A3]]]. exists a. split; [exact A1|]. split; [|auto].
      unfold kx_blocks, fifo_blocks. rewrite A2, N.eqb_refl, andb_true_r. apply andb_true_iff. split; apply Z.ltb_lt; lia.
    - intros b Hb. rewrite instants_all. destruct (Hmine b Hb) as [Ib _]. pose proof (lr_times _ _ _ _ _ _ LR b Ib). lia. }
  etransitivity; [exact T'|]. clear T T'. rewrite np_fifo_contention_eq.
  assert (Z1 : zsum (map (fun a => instants (fun _ => true) (cr_start a) (cr_end a)) (hit tr mine kx_blocks)) =
    Z.of_N (sumN (map (fun c => total_length (hit_sel info (fun _ _ => true) tr mine kx_blocks (in_c c))) (seq 0 (num_clusters info))))).
  { rewrite (zsum_partition _ cl (hit tr mine kx_blocks) (num_clusters info)).
    - generalize (seq 0 (num_clusters info)). induction l as [|c l IH]; [reflexivity|]. cbn [map sumN fold_right]. rewrite zsum_cons, IH. unfold sumN. rewrite N2Z.inj_add. f_equal.
      rewrite <- (hit_weight info (fun _ _ => true) tr issued mine Hissued kx_blocks (in_c c)). do 2 f_equal. apply filter_ext_in'. intros a Ha. symmetry. apply of_task_cl. apply hit_in_tr. exact Ha.
    - intros a Ha. apply cl_lt. apply hit_in_tr. exact Ha. }
  rewrite Z1. apply N2Z.inj_le.
  apply (kx_psafe info (ti_id tsk) res (ti_response tsk) (climit procs issued irq (ti_cluster tsk)) (fun _ => issued)).
  - exact W.
  - intros c _. apply kx_pselection.
  - assert (E : sumN (map (fun c => N.of_nat (length (hit_sel info (fun _ _ => true) tr mine kx_blocks (in_c c)))) (seq 0 (num_clusters info))) = N.of_nat (length (hit tr mine kx_blocks))).
    { rewrite (length_split cl (num_clusters info)); [|intros a Ha; apply cl_lt; apply hit_in_tr; exact Ha]. f_equal. apply map_ext. intros c. unfold hit_sel. rewrite map_length. do 2 f_equal.
      apply filter_ext_in'. intros a Ha. apply of_task_cl. apply hit_in_tr. exact Ha. }
    rewrite E, N.mul_comm. assert (C := hit_count tr issued mine Hissued kx_blocks (fun _ => true) (divide_with_ceil (num_cpus info procs irq) k - 1)%N). rewrite filter_true in C. apply C.
    intros b Hb. rewrite (filter_ext _ (fun a => kx_blocks a b)) by (intros; apply andb_true_r). destruct (Hmine b Hb) as [Ib [Tb _]]. apply kx_total_once; assumption.
Qed.
End KX.

(** * The results of the analysis *)
Open Scope N_scope.

Definition kx_once (info : list taskinfo) (replicas : nat -> N) (procs : N) (irq : option nat) (r : nat) : N := divide_with_ceil (num_cpus info procs irq) (replicas r) - 1.
Definition kx_block1 (info : list taskinfo) (replicas : nat -> N) (procs : N) (irq : option nat) (tsk : taskinfo) (r : nat) (issued : N) : interf :=
  bb_limited (sort_limited (np_fifo_per_resource_contention tsk (cluster_contention info) procs r issued irq)) (kx_once info replicas procs irq r * issued) inter0.
Definition kx_remote info replicas procs irq tsk : N := sumN (map (fun q => i_len (kx_block1 info replicas procs irq tsk (q_res q) (q_num q))) (ti_requests tsk)).
Definition kx_span info replicas procs irq tsk : N := maxN (map (fun q => i_len (kx_block1 info replicas procs irq tsk (q_res q) 1) + q_len q) (ti_requests tsk)).

Lemma kx_step_fold info replicas procs irq tsk l : forall b s,
  i_len (fst (fold_left (kx_step (num_cpus info procs irq) procs replicas irq (cluster_contention info) tsk) l (b, s))) = i_len b + sumN (map (fun q => i_len (kx_block1 info replicas procs irq tsk (q_res q) (q_num q))) l) /\
  i_len (snd (fold_left (kx_step (num_cpus info procs irq) procs replicas irq (cluster_contention info) tsk) l (b, s))) = N.max (i_len s) (maxN (map (fun q => i_len (kx_block1 info replicas procs irq tsk (q_res q) 1) + q_len q) l)).
Proof.
  induction l as [|q r IH]; intros b s; [cbn; split; lia|]. cbn [fold_left map]. unfold sumN, maxN. cbn [fold_right]. fold (sumN (map (fun q => i_len (kx_block1 info replicas procs irq tsk (q_res q) (q_num q))) r)).
  fold (maxN (map (fun q => i_len (kx_block1 info replicas procs irq tsk (q_res q) 1) + q_len q) r)).
  assert (E : exists b1 s1, kx_step (num_cpus info procs irq) procs replicas irq (cluster_contention info) tsk (b, s) q = (b1, s1) /\
    i_len b1 = i_len b + i_len (kx_block1 info replicas procs irq tsk (q_res q) (q_num q)) /\ i_len s1 = N.max (i_len s) (i_len (kx_block1 info replicas procs irq tsk (q_res q) 1) + q_len q)).
  { unfold kx_step. cbv zeta. eexists. eexists. split; [reflexivity|]. split; [reflexivity|]. rewrite imax_len. unfold iadd at 1; cbn [i_len]. do 2 f_equal.
    unfold kx_block1, kx_once. destruct (N.eqb_spec (q_num q) 1) as [->|_]; cbn [negb]; [reflexivity|]. rewrite N.mul_1_r. reflexivity. }
  destruct E as [b1 [s1 [E [E1 E2]]]]. rewrite E. destruct (IH b1 s1) as [A B]. rewrite A, B, E1, E2. split; lia.
Qed.

Definition kx_raw (info : list taskinfo) (replicas : nat -> N) (procs : N) (irq : option nat) (tsk : taskinfo) : bounds :=
  let '(bterm, span) := fold_left (kx_step (num_cpus info procs irq) procs replicas irq (cluster_contention info) tsk) (ti_requests tsk) (inter0, inter0) in
  BB bterm span inter0 inter0 inter0.

Lemma kx_raw_lens info replicas procs irq tsk : i_len (bb_block (kx_raw info replicas procs irq tsk)) = kx_remote info replicas procs irq tsk /\
  i_len (bb_span (kx_raw info replicas procs irq tsk)) = kx_span info replicas procs irq tsk.
Proof.
  unfold kx_raw. pose proof (kx_step_fold info replicas procs irq tsk (ti_requests tsk) inter0 inter0) as [A B].
  destruct (fold_left _ (ti_requests tsk) (inter0, inter0)) as [bt sp]. cbn [fst snd] in A, B. cbn [bb_block bb_span]. rewrite A, B. cbn [i_len inter0]. unfold kx_remote, kx_span. split; lia.
Qed.

Definition kx_arrival info replicas procs irq tsk : N := maxN (map (fun t => kx_span info replicas procs irq t) (local_lower info tsk)).

Lemma kx_result info replicas procs irq i tsk : nth_error info i = Some tsk -> exists b, nth_error (clustered_kx_omlp_bounds info replicas procs irq) i = Some b /\
  i_len (bb_span b) = kx_span info replicas procs irq tsk /\ i_len (bb_arrival b) = kx_arrival info replicas procs irq tsk /\
  i_len (bb_block b) = kx_remote info replicas procs irq tsk + kx_arrival info replicas procs irq tsk.
Proof.
  intros H. assert (E : clustered_kx_omlp_bounds info replicas procs irq = charge_arrival_blocking (map (fun t => (t, kx_raw info replicas procs irq t)) info)).
  { unfold clustered_kx_omlp_bounds. cbv zeta. f_equal. apply map_ext. intros t. unfold kx_raw, num_cpus, num_clusters. destruct (fold_left _ (ti_requests t) (inter0, inter0)) as [bt sp]. reflexivity. }
  rewrite E. unfold charge_arrival_blocking.
  pose proof (map_nth_error (fun t => (t, kx_raw info replicas procs irq t)) i info H) as E1. cbv beta in E1.
  rewrite (map_nth_error _ _ _ E1). eexists. split; [reflexivity|]. cbv beta iota zeta. cbn [bb_remote bb_span bb_arrival bb_block].
  destruct (kx_raw_lens info replicas procs irq tsk) as [A B].
  assert (EA : i_len (max_local_request_span tsk (map (fun t => (t, kx_raw info replicas procs irq t)) info)) = kx_arrival info replicas procs irq tsk).
  { rewrite max_span_len. unfold kx_arrival. f_equal. apply map_ext. intros t. apply kx_raw_lens. }
  repeat split; [exact B|exact EA|]. unfold iadd; cbn [i_len]. rewrite A, EA. reflexivity.
Qed.

Open Scope Z_scope.

Lemma spin_time_of_job tr tsk k : spin_time (ti_id tsk) k tr = zsum (map (fun b => cr_start b - cr_issue b) (of_job tr tsk k)).
Proof. unfold spin_time, of_job. induction tr as [|c r IH]; [reflexivity|]. cbn [fold_right filter]. destruct (is_job (ti_id tsk) k c); [|exact IH]. cbn [map]. rewrite zsum_cons, IH. reflexivity. Qed.

Definition irq_ok (info : list taskinfo) (irq : option nat) : Prop := match irq with Some i => (i < num_clusters info)%nat | None => True end.

Lemma kx_total_safe info replicas procs irq rel comp rep tr tsk j : wf_info info ->
  (forall t, In t info -> sporadic_jobs (ti_period t) (ti_response t) (rel (ti_id t)) (comp (ti_id t))) ->
  (forall r, kx_execution info procs irq (replicas r) rel comp r (rep r) (tr r)) -> (forall r, (0 < replicas r)%N) -> irq_ok info irq -> In tsk info ->
  total_spin (ti_id tsk) j tr (map q_res (ti_requests tsk)) <= Z.of_N (kx_remote info replicas procs irq tsk).
Proof.
  intros W SJ H HR HI Ht. unfold total_spin, kx_remote. rewrite map_map.
  assert (G : forall q, In q (ti_requests tsk) -> spin_time (ti_id tsk) j (tr (q_res q)) <= Z.of_N (i_len (kx_block1 info replicas procs irq tsk (q_res q) (q_num q)))).
  { intros q Hq. rewrite spin_time_of_job. pose proof (kx_requests _ _ _ _ _ _ _ _ _ (H (q_res q))) as LR.
    apply (kx_wait_safe info procs irq (replicas (q_res q)) rel comp (q_res q) (rep (q_res q)) (tr (q_res q)) W SJ (H (q_res q)) (HR (q_res q)) HI tsk j Ht (q_num q) (of_job (tr (q_res q)) tsk j)).
    - intros b. apply of_job_in.
    - apply of_job_apart. apply (lr_sequential _ _ _ _ _ _ LR).
    - apply (lr_number _ _ _ _ _ _ LR (ti_id tsk) j tsk q (wf_id info tsk W Ht) Hq eq_refl). }
  induction (ti_requests tsk) as [|q r IH]; [cbn; lia|]. cbn [map fold_right sumN]. specialize (IH (fun x Hx => G x (or_intror Hx))). specialize (G q (or_introl eq_refl)). unfold sumN in IH. lia.
Qed.

Lemma kx_span_safe info replicas procs irq rel comp rep r tr tsk c : wf_info info ->
  (forall t, In t info -> sporadic_jobs (ti_period t) (ti_response t) (rel (ti_id t)) (comp (ti_id t))) ->
  kx_execution info procs irq (replicas r) rel comp r rep tr -> (0 < replicas r)%N -> irq_ok info irq -> In tsk info -> In c tr -> cr_task c = ti_id tsk ->
  cr_end c - cr_issue c <= Z.of_N (kx_span info replicas procs irq tsk).
Proof.
  intros W SJ H HR HI Ht Hc Et. pose proof (kx_requests _ _ _ _ _ _ _ _ _ H) as LR. destruct (lr_spec _ _ _ _ _ _ LR c Hc) as [t [q [N1 [N2 [N3 N4]]]]]. rewrite Et, (wf_id info tsk W Ht) in N1. injection N1 as <-.
  assert (S : zsum (map (fun b => cr_start b - cr_issue b) [c]) <= Z.of_N (i_len (kx_block1 info replicas procs irq tsk r 1))).
  { apply (kx_wait_safe info procs irq (replicas r) rel comp r rep tr W SJ H HR HI tsk (cr_job c) Ht 1 [c]).
    - intros b [<-|[]]. auto.
    - repeat constructor.
    - cbn. lia. }
  cbn [map] in S. rewrite zsum_cons in S. change (zsum []) with 0 in S. rewrite instants_all in N4. pose proof (lr_times _ _ _ _ _ _ LR c Hc).
  assert (LE : (i_len (kx_block1 info replicas procs irq tsk (q_res q) 1) + q_len q <= kx_span info replicas procs irq tsk)%N) by (unfold kx_span; apply maxN_in, (in_map (fun q => i_len (kx_block1 info replicas procs irq tsk (q_res q) 1) + q_len q)%N); exact N2).
  rewrite N3 in LE. lia.
Qed.

Lemma kx_arrival_safe info replicas procs irq rel comp rep r tr tsk low c : wf_info info ->
  (forall t, In t info -> sporadic_jobs (ti_period t) (ti_response t) (rel (ti_id t)) (comp (ti_id t))) ->
  kx_execution info procs irq (replicas r) rel comp r rep tr -> (0 < replicas r)%N -> irq_ok info irq ->
  In low info -> ti_id low <> ti_id tsk -> ti_cluster low = ti_cluster tsk -> (ti_prio tsk <= ti_prio low)%N ->
  In c tr -> cr_task c = ti_id low -> cr_end c - cr_issue c <= Z.of_N (kx_arrival info replicas procs irq tsk).
Proof.
  intros W SJ H HR HI Hl NE Ec Pr Hc El. etransitivity; [apply (kx_span_safe info replicas procs irq rel comp rep r tr low c W SJ H HR HI Hl Hc El)|].
  apply N2Z.inj_le. unfold kx_arrival. apply maxN_in. apply (in_map (fun t => kx_span info replicas procs irq t)). apply filter_In. split; [exact Hl|].
  destruct (Nat.eqb_spec (ti_id low) (ti_id tsk)); [contradiction|]. rewrite Ec, Nat.eqb_refl. cbn. apply N.leb_le. exact Pr.
Qed.

(** * The partitioned OMLP is the clustered OMLP with one processor per cluster *)
Lemma part_omlp_eq info : map (fun b => (bb_block b, bb_span b, bb_arrival b)) (part_omlp_bounds info) = map (fun b => (bb_block b, bb_span b, bb_arrival b)) (task_fair_mutex_bounds info 1 None).
Proof.
  unfold part_omlp_bounds, task_fair_mutex_bounds, clustered_omlp_bounds. cbv zeta.
  change (part_omlp_step (cluster_contention info)) with (clustered_omlp_step 1 None (cluster_contention info)).
  unfold charge_arrival_blocking. rewrite !map_map. apply map_ext. intros t.
  destruct (fold_left (clustered_omlp_step 1 None (cluster_contention info) t) (ti_requests t) (inter0, inter0)) as [bt sp]. cbn [bb_block bb_span bb_arrival].
  assert (E : max_local_request_span t (map (fun tsk => let '(bterm, span) := fold_left (clustered_omlp_step 1 None (cluster_contention info) tsk) (ti_requests tsk) (inter0, inter0) in (tsk, BB bterm span inter0 inter0 inter0)) info) =
    max_local_request_span t (map (fun tsk => let '(bterm, span) := fold_left (clustered_omlp_step 1 None (cluster_contention info) tsk) (ti_requests tsk) (inter0, inter0) in (tsk, BB bterm span inter0 bterm inter0)) info)).
  { unfold max_local_request_span. set (F := fun (span : interf) (p : taskinfo * bounds) => _). set (f1 := fun tsk : taskinfo => _). set (f2 := fun tsk : taskinfo => _).
    assert (G : forall l acc, fold_left F (map f1 l) acc = fold_left F (map f2 l) acc); [|apply G]. induction l as [|x l IH]; intros acc; [reflexivity|]. cbn [map fold_left].
    rewrite IH. f_equal. unfold F, f1, f2. destruct (fold_left (clustered_omlp_step 1 None (cluster_contention info) x) (ti_requests x) (inter0, inter0)) as [b1 s1]. reflexivity. }
  rewrite E. reflexivity.
Qed.
