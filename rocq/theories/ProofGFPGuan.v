(** The model of guan.py: the sum of the largest differences, soundness,
    termination, and dominance over bertogna.py. *)
From Coq Require Import ZArith List Bool Lia Permutation Sorted.
From Verif Require Import Base ModelTasks ModelFP ModelGFP SpecUni SpecQPA SpecGlobal SpecGFP ProofUni ProofEDF ProofGlobal ProofGEDF ProofGEDFRta ProofGFP ProofGFPSound ProofGFPTop.
Import ListNotations.
Open Scope Z_scope.

(** ** Sums of the largest values *)
Definition zge (x y : Z) : Prop := y <= x.
Definition top (c : nat) (l : list Z) : Z := zsum (firstn c (zsort_desc l)).

Lemma zinsert_in : forall x l y, In y (zinsert_desc x l) <-> y = x \/ In y l.
Proof.
  intros x. induction l as [|z l IH]; intros y; cbn; [intuition|]. destruct (z <=? x); cbn; [intuition|]. rewrite IH. intuition.
Qed.

Lemma zsort_in : forall l y, In y (zsort_desc l) <-> In y l.
Proof. induction l as [|x l IH]; intros y; cbn; [reflexivity|]. rewrite zinsert_in, IH. intuition. Qed.

Lemma zinsert_sorted : forall x l, StronglySorted zge l -> StronglySorted zge (zinsert_desc x l).
Proof.
  intros x. induction l as [|y l IH]; intros H; cbn; [repeat constructor|]. inversion_clear H as [|? ? H1 H2].
  destruct (Z.leb_spec y x).
  - constructor; [constructor; assumption|]. constructor; [exact H|]. eapply Forall_impl; [|exact H2]. unfold zge. intros. lia.
  - constructor; [apply IH; assumption|]. apply Forall_forall. intros z Hz. apply zinsert_in in Hz. rewrite Forall_forall in H2.
    destruct Hz as [->|Hz]; [unfold zge; lia|apply H2; assumption].
Qed.

Lemma zsort_sorted : forall l, StronglySorted zge (zsort_desc l).
Proof. induction l; cbn; [constructor|apply zinsert_sorted; assumption]. Qed.

Lemma shift_le : forall c l y, StronglySorted zge (y :: l) -> 0 <= y -> Forall (fun x => 0 <= x) l -> zsum (firstn c l) <= zsum (firstn c (y :: l)).
Proof.
  induction c; intros l y H Hy Hp; [cbn; lia|]. destruct l as [|z l]; [cbn [firstn zsum]; destruct c; cbn; lia|].
  inversion_clear H as [|? ? H1 H2]. inversion_clear Hp as [|? ? Hz Hp']. inversion_clear H2 as [|? ? Z1 _]. unfold zge in Z1.
  cbn [firstn zsum]. specialize (IHc l z H1 Hz Hp'). cbn [firstn] in IHc. lia.
Qed.

Lemma top_insert : forall c x l, StronglySorted zge l -> 0 <= x -> Forall (fun x => 0 <= x) l ->
  zsum (firstn (S c) (zinsert_desc x l)) = Z.max (x + zsum (firstn c l)) (zsum (firstn (S c) l)).
Proof.
  intros c x l. revert c. induction l as [|y l IH]; intros c Hs Hx Hp; [cbn [zinsert_desc firstn zsum]; rewrite !firstn_nil; cbn; lia|].
  inversion_clear Hp as [|? ? Hy Hp']. pose proof Hs as Hs'. inversion_clear Hs' as [|? ? H1 H2]. cbn [zinsert_desc].
  destruct (Z.leb_spec y x) as [L|L].
  - cbn [firstn zsum]. pose proof (shift_le c l y Hs Hy Hp'). lia.
  - cbn [firstn zsum]. destruct c as [|c].
    + cbn [firstn zsum]. lia.
    + rewrite (IH c H1 Hx Hp'). cbn [firstn zsum]. lia.
Qed.

Lemma top_cons : forall c x l, 0 <= x -> Forall (fun x => 0 <= x) l -> top (S c) (x :: l) = Z.max (x + top c l) (top (S c) l).
Proof.
  intros c x l Hx Hp. unfold top. cbn [zsort_desc fold_right]. apply top_insert; [apply zsort_sorted|assumption|].
  rewrite Forall_forall in *. intros y Hy. apply Hp. apply zsort_in. assumption.
Qed.

Lemma top_nil : forall c, top c [] = 0.
Proof. intros. unfold top. cbn. rewrite firstn_nil. reflexivity. Qed.

(** The largest sum in which at most c entries count with their first component. *)
Fixpoint omega (c : nat) (l : list (Z * Z)) : Z :=
  match l with
  | [] => 0
  | (ci, nc) :: r => match c with O => nc + omega O r | S c' => Z.max (ci + omega c' r) (nc + omega c r) end
  end.

Lemma top_omega : forall l c, Forall (fun p => snd p <= fst p) l ->
  top c (map (fun p => fst p - snd p) l) + zsum (map snd l) = omega c l.
Proof.
  induction l as [|[ci nc] l IH]; intros c H; [cbn [map omega]; rewrite top_nil; reflexivity|]. inversion_clear H as [|? ? H1 H2]. cbn [fst snd] in H1.
  cbn [map zsum fst snd omega]. destruct c as [|c].
  - rewrite <- IH by assumption. unfold top. cbn [firstn zsum]. lia.
  - rewrite <- !IH by assumption. rewrite top_cons; [lia|lia|]. apply Forall_map. eapply Forall_impl; [|exact H2]. intros p Hp. cbv beta in *. lia.
Qed.

Lemma omega_mono : forall l l', Forall2 (fun p q => fst p <= fst q /\ snd p <= snd q) l l' -> forall c, omega c l <= omega c l'.
Proof.
  intros l l' H. induction H as [|[a b] [a' b'] l l' [H1 H2] _ IH]; intros c; cbn [omega fst snd] in *; [lia|].
  destruct c as [|c]; [specialize (IH O); lia|]. pose proof (IH c). pose proof (IH (S c)). lia.
Qed.

Lemma omega_le_first : forall l, Forall (fun p => snd p <= fst p) l -> forall c, omega c l <= zsum (map fst l).
Proof.
  intros l H. induction H as [|[a b] l H1 _ IH]; intros c; cbn [omega fst snd map zsum] in *; [lia|].
  destruct c as [|c]; [specialize (IH O); lia|]. pose proof (IH c). pose proof (IH (S c)). lia.
Qed.

Lemma omega_nonneg : forall l, Forall (fun p => 0 <= fst p /\ 0 <= snd p) l -> forall c, 0 <= omega c l.
Proof.
  intros l H. induction H as [|[a b] l H1 _ IH]; intros c; cbn [omega fst snd] in *; [lia|].
  destruct c as [|c]; [specialize (IH O); lia|]. pose proof (IH c). pose proof (IH (S c)). lia.
Qed.

Lemma omega_mask : forall l c (car : nat -> bool), sumf (fun i => b2z (car i)) (length l) <= Z.of_nat c ->
  Forall (fun p => snd p <= fst p) l ->
  sumf (fun i => if car i then fst (nth i l (0, 0)) else snd (nth i l (0, 0))) (length l) <= omega c l.
Proof.
  induction l as [|[a b] l IH]; intros c car Hc Hp; [cbn; lia|]. inversion_clear Hp as [|? ? H1 H2]. cbn [fst snd] in H1.
  cbn [length] in *. rewrite (sumf_split _ 1 (length l)). rewrite (sumf_split _ 1 (length l)) in Hc. cbn [sumf plus nth fst snd omega] in *.
  specialize (fun c X => IH c (fun i => car (S i)) X H2). cbn beta in IH.
  assert (N : 0 <= sumf (fun i => b2z (car (S i))) (length l)) by (apply sumf_nonneg; intros i _; pose proof (b2z_range (car (S i))); lia).
  destruct c as [|c].
  - destruct (car 0%nat); cbn [b2z] in Hc; [lia|]. specialize (IH 0%nat ltac:(lia)). lia.
  - destruct (car 0%nat); cbn [b2z] in Hc.
    + specialize (IH c ltac:(lia)). lia.
    + specialize (IH (S c) ltac:(lia)). lia.
Qed.

(** ** The interference terms *)
Definition gci (tk : task) (time : Z) (a : ganalysed) : Z := interference_with_carry_in (g_task (fst a)) (snd a) tk time.
Definition gnc (tk : task) (time : Z) (a : ganalysed) : Z := interference_without_carry_in (g_task (fst a)) tk time.

Lemma gci_eq : forall tk time a, gci tk time a =
  Z.min (Z.max (ci_bound (t_cost (g_task (fst a))) (t_period (g_task (fst a))) (snd a) time) 0) (time - t_cost tk + 1).
Proof. reflexivity. Qed.

Lemma gnc_eq : forall tk time a, ok_a a -> 0 <= time ->
  gnc tk time a = Z.min (wl (t_cost (g_task (fst a))) (t_period (g_task (fst a))) time) (time - t_cost tk + 1).
Proof.
  intros tk time a [[A1 [A2 _]] _] Ht. unfold gnc, interference_without_carry_in.
  replace (time / t_period (g_task (fst a)) * t_cost (g_task (fst a)) + Z.min (time mod t_period (g_task (fst a))) (t_cost (g_task (fst a))))
    with (wl (t_cost (g_task (fst a))) (t_period (g_task (fst a))) time).
  - rewrite Z.max_l by (apply wl_nonneg; lia). reflexivity.
  - unfold wl. destruct (Z.ltb_spec time 0); [lia|]. rewrite (Z.min_comm (t_cost (g_task (fst a)))). reflexivity.
Qed.

Lemma gnc_le_gci : forall tk time a, ok_a a -> 0 <= time -> gnc tk time a <= gci tk time a.
Proof.
  intros tk time a Ha Ht. rewrite gnc_eq, gci_eq by assumption. apply Z.min_le_compat_r. destruct Ha as [[A1 [A2 [A3 [A4 _]]]] [A5 A6]].
  destruct (Z.eq_dec (t_cost (g_task (fst a))) 0) as [C0|C0].
  - rewrite C0. unfold wl. destruct (Z.ltb_spec time 0); [lia|]. pose proof (Z.mod_pos_bound time (t_period (g_task (fst a))) ltac:(lia)). lia.
  - eapply Z.le_trans; [|apply Z.le_max_l]. apply ci_bound_ge; lia.
Qed.

Lemma ci_bound_mono : forall C T R R' x y, 0 <= C -> 1 <= T -> R <= R' -> C <= T -> x <= y ->
  Z.max (ci_bound C T R x) 0 <= Z.max (ci_bound C T R' y) 0.
Proof.
  intros C T R R' x y HC HT HR HCT Hxy. unfold ci_bound.
  destruct (Z.eq_dec C 0) as [->|C0].
  { rewrite !Z.mul_0_r. lia. }
  rewrite !(Z.max_comm (_ - C) 0). set (u := Z.max 0 (x - C)). set (v := Z.max 0 (y - C)). assert (Huv : 0 <= u <= v) by (unfold u, v; lia).
  pose proof (Z.div_mod u T ltac:(lia)) as Eu. pose proof (Z.mod_pos_bound u T ltac:(lia)) as Bu.
  pose proof (Z.div_mod v T ltac:(lia)) as Ev. pose proof (Z.mod_pos_bound v T ltac:(lia)) as Bv.
  assert (u / T <= v / T) by (apply Z.div_le_mono; lia). assert (0 <= u / T) by (apply Z.div_pos; lia).
  set (p := u / T) in *. set (q := v / T) in *. set (r := u mod T) in *. set (w := v mod T) in *.
  apply Z.max_le_compat_r.
  destruct (Z.eq_dec p q) as [E|E].
  - assert (r <= w) by nia. rewrite E. lia.
  - assert (p + 1 <= q) by lia. nia.
Qed.

Lemma gci_mono : forall tk a b x y, fst a = fst b -> ok_a a -> snd a <= snd b -> x <= y -> gci tk x a <= gci tk y b.
Proof.
  intros tk a b x y E [[A1 [A2 [A3 [A4 _]]]] [A5 A6]] HR Hxy. rewrite !gci_eq, <- E. apply Z.min_le_compat; [|lia]. apply ci_bound_mono; lia.
Qed.

Lemma gnc_mono : forall tk a x y, ok_a a -> 0 <= x -> x <= y -> gnc tk x a <= gnc tk y a.
Proof.
  intros tk a x y Ha Hx Hxy. rewrite !gnc_eq by (assumption || lia). destruct Ha as [[A1 [A2 [A3 [A4 _]]]] [A5 A6]].
  apply Z.min_le_compat; [|lia]. apply wl_lipschitz; lia.
Qed.

Lemma total_omega : forall tk hp m time, Forall ok_a hp -> 0 <= time ->
  total_interference tk hp m time = omega (Z.to_nat (m - 1)) (map (fun a => (gci tk time a, gnc tk time a)) hp).
Proof.
  intros tk hp m time Hhp Ht. rewrite <- top_omega.
  - unfold total_interference, top. rewrite !map_map. reflexivity.
  - apply Forall_map. eapply Forall_impl; [|exact Hhp]. intros a Ha. apply gnc_le_gci; assumption.
Qed.

Lemma guan_demand_mono : forall m hp t x y, 1 <= m -> Forall ok_a hp -> 0 <= x -> x <= y -> guan_demand m hp t x <= guan_demand m hp t y.
Proof.
  intros m hp t x y Hm Hhp Hx Hy. unfold guan_demand. apply Z.add_le_mono_l. apply Z.div_le_mono; [lia|].
  rewrite !total_omega by (assumption || lia). apply omega_mono.
  induction Hhp as [|a hp Ha _ IH]; cbn; constructor; [|exact IH]. cbn [fst snd]. split; [apply gci_mono; auto; lia|apply gnc_mono; assumption].
Qed.

Lemma guan_demand_ge : forall m hp t x, 1 <= m -> Forall ok_a hp -> t_cost (g_task t) <= x -> 0 <= x -> t_cost (g_task t) <= guan_demand m hp t x.
Proof.
  intros m hp t x Hm Hhp Hx Hx0. unfold guan_demand.
  enough (0 <= total_interference (g_task t) hp m x / m) by lia. apply Z.div_pos; [|lia]. rewrite total_omega by assumption.
  apply omega_nonneg. apply Forall_map. eapply Forall_impl; [|exact Hhp]. intros a Ha. cbn [fst snd].
  pose proof (gnc_le_gci (g_task t) x a Ha Hx0). assert (0 <= gnc (g_task t) x a); [|lia]. rewrite gnc_eq by assumption.
  destruct Ha as [[A1 [A2 _]] _]. pose proof (wl_nonneg (t_cost (g_task (fst a))) (t_period (g_task (fst a))) x). lia.
Qed.

Lemma guan_rta_spec : forall fuel m hp t r, 1 <= m -> Forall ok_a hp -> wf_g t -> guan_rta fuel m hp t = Accepted r ->
  ok_a (t, r) /\ (if Z.of_nat (length hp) <? m then r = t_cost (g_task t)
   else least_bound (guan_demand m hp t) (t_cost (g_task t)) r /\ guan_demand m hp t r = r).
Proof.
  intros fuel m hp t r Hm Hhp Ht H. pose proof Ht as [W1 [W2 [W3 [W4 W5]]]]. unfold guan_rta in H. destruct (Z.of_nat (length hp) <? m) eqn:E.
  - destruct (Z.ltb_spec (t_deadline (g_task t)) (t_cost (g_task t))); [discriminate|]. injection H as <-.
    split; [|reflexivity]. split; [assumption|cbn [fst snd]; lia].
  - apply grta_accept with (lo := t_cost (g_task t)) in H.
    + destruct H as [[H1 [H2 H3]] [H4 H5]]. split; [split; [assumption|cbn [fst snd]; lia]|]. split; [split; [assumption|split; assumption]|assumption].
    + intros. apply guan_demand_mono; try assumption; lia.
    + intros. apply guan_demand_ge; try assumption; lia.
    + lia.
    + apply guan_demand_ge; try assumption; lia.
    + intros; assumption.
Qed.

Lemma guan_safe : forall fuel (m : nat) ts res, (1 <= m)%nat -> Forall wf_g ts ->
  guan_is_schedulable fuel (Z.of_nat m) ts = GDone true res ->
  forall s sc, legal_edf (ets ts) s -> gvalid (length ts) m s sc -> gfp_strict (length ts) m s sc ->
  forall k, (k < length res)%nat -> resp s sc k (snd (nth k res da0)).
Proof.
  intros fuel m ts res Hm Hw H s sc Hl Hv Hp. apply gfp_all_true in H. destruct H as [E H].
  assert (Len : length res = length ts) by (rewrite <- E, map_length; reflexivity).
  assert (Hrta : forall k, (k < length res)%nat -> guan_rta fuel (Z.of_nat m) (firstn k res) (fst (nth k res da0)) = Accepted (snd (nth k res da0))) by (intros; apply H; assumption).
  assert (Hm1 : 1 <= Z.of_nat m) by lia.
  assert (Ok : forall k, (k < length res)%nat -> ok_a (nth k res da0)).
  { apply (all_ok (guan_rta fuel (Z.of_nat m)) ts); try assumption. intros. eapply guan_rta_spec; try eassumption. }
  assert (Lets : length (ets ts) = length ts) by apply map_length.
  induction k as [k IH] using (well_founded_induction lt_wf). intros Hk.
  assert (Hhp : Forall ok_a (firstn k res)).
  { apply Forall_firstn. intros i d Hi Hl'. rewrite (nth_indep _ d da0) by assumption. apply Ok. assumption. }
  pose proof (wf_g_nth ts res k Hw E Hk) as Wk. destruct (guan_rta_spec _ _ _ _ _ Hm1 Hhp Wk (Hrta k Hk)) as [[_ O1] O3].
  cbn [fst snd] in O1. pose proof Wk as [W1 [W2 [W3 [W4 W5]]]].
  assert (En : forall i, (i < length res)%nat -> et (ets ts) i = e_of (g_task (fst (nth i res da0)))).
  { intros i Hi. rewrite et_ets, <- fst_nth, E. reflexivity. }
  rewrite firstn_len in O3 by assumption.
  apply (guan_sound (ets ts) m s sc (wf_ets ts Hw) Hl) with (R := fun i => snd (nth i res da0)); rewrite ?Lets; try assumption; try lia.
  - intros i Hi. rewrite En by lia. cbn [e_of e_cost e_period]. destruct (Ok i ltac:(lia)) as [[V1 [V2 [V3 [V4 _]]]] [V5 V6]].
    split; [apply IH; lia|]. lia.
  - rewrite En by assumption. cbn [e_of e_cost]. lia.
  - rewrite En by assumption. cbn [e_of e_period]. lia.
  - rewrite En by assumption. cbn [e_of e_cost].
    destruct (Z.ltb_spec (Z.of_nat k) (Z.of_nat m)) as [Lt|Ge]; [left; lia|right]. destruct O3 as [_ O3].
    set (tk := fst (nth k res da0)) in *. set (r := snd (nth k res da0)) in *.
    intros car Hcar. unfold guan_demand in O3. rewrite total_omega in O3 by (assumption || lia).
    set (l := map (fun a => (gci (g_task tk) r a, gnc (g_task tk) r a)) (firstn k res)) in *.
    assert (Ll : length l = k) by (unfold l; rewrite map_length; apply firstn_len; assumption).
    apply Z.le_lt_trans with (omega (Z.to_nat (Z.of_nat m - 1)) l); [|replace (r - t_cost (g_task tk) + 1) with ((r - t_cost (g_task tk)) + 1) by ring; apply div_lt_mul; lia].
    pose proof (omega_mask l (Z.to_nat (Z.of_nat m - 1)) car) as M. rewrite Ll in M.
    eapply Z.le_trans; [|apply M; [lia|]].
    + apply Z.eq_le_incl. apply sumf_ext. intros i Hi.
      assert (Nl : nth i l (0, 0) = (gci (g_task tk) r (nth i res da0), gnc (g_task tk) r (nth i res da0))).
      { unfold l. rewrite nth_indep with (d' := (gci (g_task tk) r da0, gnc (g_task tk) r da0)) by (fold l; lia).
        rewrite (map_nth (fun a => (gci (g_task tk) r a, gnc (g_task tk) r a))).
        assert (X : nth i (firstn k res) da0 = nth i res da0); [|rewrite X; reflexivity].
        clear - Hi. revert res i Hi. induction k; intros res i Hi; [lia|]. destruct res; [destruct i; reflexivity|]. destruct i; [reflexivity|]. cbn. apply IHk. lia. }
      rewrite Nl. cbn [fst snd]. unfold guan_term. rewrite En by lia. cbn [e_of e_cost e_period].
      destruct (car i); [rewrite gci_eq|rewrite gnc_eq by (first [apply Ok; lia|lia])]; reflexivity.
    + unfold l. apply Forall_map. eapply Forall_impl; [|exact Hhp]. intros a Ha. apply gnc_le_gci; [assumption|lia].
Qed.

Lemma guan_total : forall fuel m ts, 1 <= m -> Forall wf_g ts -> (1 <= fuel)%nat -> Forall (fun t => t_deadline (g_task t) + 1 < Z.of_nat fuel) ts ->
  guan_is_schedulable fuel m ts <> GFuel.
Proof.
  intros fuel m ts Hm Hw Hf1 Hf. apply gfp_all_total; [assumption|constructor| |intros; eapply guan_rta_spec; eassumption].
  intros hp t Hin Hhp Ht. rewrite Forall_forall in Hf. specialize (Hf t Hin). pose proof Ht as [W1 [W2 [W3 [W4 W5]]]]. unfold guan_rta.
  destruct (Z.of_nat (length hp) <? m); [destruct (t_deadline (g_task t) <? t_cost (g_task t)); discriminate|].
  apply grta_fuel; try lia.
  - intros. apply guan_demand_mono; try assumption; lia.
  - intros. apply guan_demand_ge; try assumption; lia.
Qed.

(** ** Dominance *)
Lemma grta_dominates : forall f g hi fuel lo lo' r', lo <= lo' ->
  (forall x y, lo <= x -> x <= y -> f x <= f y) -> (forall x, lo <= x -> lo <= f x) ->
  (forall x, lo' <= x -> f x <= g x) -> lo' <= r' -> r' <= hi -> g r' <= r' -> hi - lo + 1 < Z.of_nat fuel -> (1 <= fuel)%nat ->
  exists r, grta_loop fuel f hi lo = Accepted r /\ r <= r'.
Proof.
  intros f g hi fuel lo lo' r' Hlo Hmono Hge Hfg Hr Hhi Hg Hf Hf1.
  assert (Fr : f r' <= r') by (specialize (Hfg r' Hr); lia).
  assert (L0 : lo <= f lo) by (apply Hge; lia).
  destruct (grta_loop fuel f hi lo) as [| |r] eqn:E.
  - exfalso. apply (grta_fuel f lo hi fuel Hmono Hge Hf Hf1 E).
  - pose proof (grta_reject f lo hi Hmono Hge fuel lo (Z.le_refl _) L0 (fun x X _ => X) E r' ltac:(lia) Fr). lia.
  - exists r. split; [reflexivity|]. apply (grta_accept f lo hi Hmono Hge) in E; [|lia|assumption|intros; assumption].
    destruct E as [[_ [_ E]] _]. apply E; lia.
Qed.

(** a list of analysed tasks whose response times are not larger *)
Definition below (a b : list ganalysed) : Prop := Forall2 (fun x y => fst x = fst y /\ snd x <= snd y) a b.

Lemma below_refl : forall a, below a a.
Proof. intros. apply Forall2_same || (induction a; constructor; [split; [reflexivity|lia]|assumption]). Qed.

Lemma gfp_all_dominates : forall a a' rta rta' (P : gtask -> Prop), 
  (forall t, P t -> wf_g t) -> (forall t, P t -> a t = true) ->
  (forall hp t r, Forall ok_a hp -> wf_g t -> rta hp t = Accepted r -> ok_a (t, r)) ->
  (forall hp t r, Forall ok_a hp -> wf_g t -> rta' hp t = Accepted r -> ok_a (t, r)) ->
  (forall hp hp' t r', P t -> Forall ok_a hp -> Forall ok_a hp' -> below hp hp' -> rta' hp' t = Accepted r' -> exists r, rta hp t = Accepted r /\ r <= r') ->
  forall todo done done' res', Forall P todo -> Forall ok_a done -> Forall ok_a done' -> below done done' ->
  gfp_all a' rta' done' todo = GDone true res' -> exists res, gfp_all a rta done todo = GDone true res /\ below res res'.
Proof.
  intros a a' rta rta' P Hwf Ha Ho Ho' Hd. induction todo as [|t todo IH]; intros done done' res' Hp Hdn Hdn' Hb H; cbn [gfp_all] in H |- *.
  - injection H as <-. exists done. split; [reflexivity|assumption].
  - inversion_clear Hp as [|? ? Pt Pr]. rewrite (Ha t Pt). cbn [negb]. destruct (negb (a' t)); [discriminate|].
    destruct (rta' done' t) as [| |r'] eqn:E; [discriminate|discriminate|].
    destruct (Hd done done' t r' Pt Hdn Hdn' Hb E) as [r [Er Hr]]. rewrite Er.
    apply (IH (done ++ [(t, r)]) (done' ++ [(t, r')])); try assumption.
    + apply Forall_app. split; [assumption|]. constructor; [|constructor]. eapply Ho; [exact Hdn|apply Hwf; assumption|eassumption].
    + apply Forall_app. split; [assumption|]. constructor; [|constructor]. eapply Ho'; [exact Hdn'|apply Hwf; assumption|eassumption].
    + apply Forall2_app; [assumption|]. constructor; [|constructor]. cbn. split; [reflexivity|assumption].
Qed.

Lemma below_length : forall a b, below a b -> length a = length b.
Proof. intros a b H. induction H; cbn; congruence. Qed.

(** Guan's interference term is at most Bertogna's. *)
Lemma gci_le_bert : forall tk x a b, fst a = fst b -> ok_a a -> ok_a b -> snd a <= snd b -> 1 <= t_cost tk -> t_cost tk <= x ->
  gci tk x a <= bert_term false x b.
Proof.
  intros tk x a b E Ha Hb HR HC Hx. rewrite bert_term_wl by (assumption || lia). cbn iota.
  eapply Z.le_trans; [apply gci_mono with (b := b) (y := x); [assumption|assumption|assumption|lia]|].
  rewrite gci_eq. destruct Hb as [[B1 [B2 [B3 [B4 _]]]] [B5 B6]]. clear E Ha HR a.
  set (C := t_cost (g_task (fst b))) in *. set (T := t_period (g_task (fst b))) in *. set (R := snd b) in *.
  destruct (Z.le_gt_cases C x) as [L|L].
  - eapply Z.le_trans; [apply Z.le_min_l|]. apply Z.max_lub; [|apply wl_nonneg; lia].
    unfold ci_bound. rewrite (Z.max_l (x - C)), (Z.max_r 0) by lia.
    pose proof (Z.div_mod (x - C) T ltac:(lia)) as Ev. pose proof (Z.mod_pos_bound (x - C) T ltac:(lia)) as Bv.
    assert (0 <= (x - C) / T) by (apply Z.div_pos; lia).
    set (q := (x - C) / T) in *. set (r := (x - C) mod T) in *. unfold wl. destruct (Z.ltb_spec (x + R - C) 0); [lia|].
    destruct (Z.le_gt_cases T (r + R)) as [G|G].
    + assert (Ed : (x + R - C) / T = q + 1) by (symmetry; apply Z.div_unique with (r + R - T); lia).
      assert (Em : (x + R - C) mod T = r + R - T) by (symmetry; apply Z.mod_unique with (q + 1); lia). rewrite Ed, Em. nia.
    + assert (Ed : (x + R - C) / T = q) by (symmetry; apply Z.div_unique with (r + R); lia).
      assert (Em : (x + R - C) mod T = r + R) by (symmetry; apply Z.mod_unique with q; lia). rewrite Ed, Em. nia.
  - eapply Z.le_trans; [apply Z.le_min_r|]. apply Z.le_trans with (wl C T x); [|apply wl_lipschitz; lia].
    rewrite wl_small by lia. lia.
Qed.

Lemma guan_le_bert : forall m hp hp' t x, 1 <= m -> Forall ok_a hp -> Forall ok_a hp' -> below hp hp' -> wf_g t -> 1 <= t_cost (g_task t) -> t_cost (g_task t) <= x ->
  guan_demand m hp t x <= bert_demand false m hp' t x.
Proof.
  intros m hp hp' t x Hm H H' Hb Ht HC Hx. rewrite bert_demand_eq by (assumption || lia). pose proof Ht as [W1 [W2 [W3 [W4 W5]]]].
  unfold guan_demand. rewrite total_omega by (assumption || lia).
  set (W := zsum (map (bert_term false x) hp')).
  assert (G : omega (Z.to_nat (m - 1)) (map (fun a => (gci (g_task t) x a, gnc (g_task t) x a)) hp) <= W).
  { eapply Z.le_trans; [apply omega_le_first|].
    - apply Forall_map. eapply Forall_impl; [|exact H]. intros a Ha. apply gnc_le_gci; [assumption|lia].
    - rewrite map_map. cbn [fst]. unfold W. clear W. induction Hb as [|a b hp hp' [E1 E2] Hb IH]; [cbn; lia|]. inversion_clear H. inversion_clear H'.
      cbn [map zsum]. pose proof (gci_le_bert (g_task t) x a b E1 H0 H E2 HC Hx). specialize (IH H1 H2). lia. }
  set (b := attr (g_blocked t)) in *. set (h := attr (g_hpdirect t)) in *.
  assert (X : W / m <= b + Z.max (W - h) 0 / m); [|pose proof (Z.div_le_mono _ _ m ltac:(lia) G); lia].
  apply Z.le_trans with ((b * m + Z.max (W - h) 0) / m); [apply Z.div_le_mono; [lia|nia]|]. rewrite Z.div_add_l by lia. lia.
Qed.

Lemma guan_dominates : forall fuel fuel' m ts res', 1 <= m -> Forall wf_g ts -> Forall (fun t => 1 <= t_cost (g_task t)) ts ->
  (1 <= fuel)%nat -> Forall (fun t => t_deadline (g_task t) + 1 < Z.of_nat fuel) ts ->
  bert_is_schedulable fuel' false m ts = GDone true res' -> exists res, guan_is_schedulable fuel m ts = GDone true res /\ below res res'.
Proof.
  intros fuel fuel' m ts res' Hm Hw HC Hf1 Hf H.
  apply (gfp_all_dominates guan_assert (fun _ => true) (guan_rta fuel m) (bert_rta fuel' false m)
    (fun t => wf_g t /\ 1 <= t_cost (g_task t) /\ t_deadline (g_task t) + 1 < Z.of_nat fuel)) with (done' := []); try assumption; try (apply Forall_nil || apply Forall2_nil).
  - intros t [X _]. exact X.
  - intros t [[X1 [X2 [X3 [X4 _]]]] _]. unfold guan_assert. apply Z.leb_le. assumption.
  - intros. eapply guan_rta_spec; eassumption.
  - intros. eapply bert_rta_spec; eassumption.
  - intros hp hp' t r' [Wt [Ct Ft]] Ohp Ohp' Hb Hr. pose proof Wt as [W1 [W2 [W3 [W4 W5]]]].
    destruct (bert_rta_spec _ _ _ _ _ _ Hm Ohp' Wt Hr) as [[_ [R1 R2]] [R3 R4]]. cbn [fst snd] in R1, R2.
    unfold guan_rta. rewrite (below_length _ _ Hb). destruct (Z.of_nat (length hp') <? m).
    + destruct (Z.ltb_spec (t_deadline (g_task t)) (t_cost (g_task t))); [lia|]. exists (t_cost (g_task t)). split; [reflexivity|lia].
    + destruct R4 as [_ R4]. apply (grta_dominates (guan_demand m hp t) (bert_demand false m hp' t)) with (lo' := t_cost (g_task t)); try assumption; try lia.
      * intros. apply guan_demand_mono; try assumption; lia.
      * intros. apply guan_demand_ge; try assumption; lia.
      * intros. apply guan_le_bert; assumption.
  - rewrite Forall_forall in *. intros t Ht. split; [apply Hw; assumption|split; [apply HC; assumption|apply Hf; assumption]].
Qed.

(** using slack never makes a bound larger *)
Lemma slack_dominates : forall fuel fuel' m ts res', 1 <= m -> Forall wf_g ts ->
  (1 <= fuel)%nat -> Forall (fun t => t_deadline (g_task t) + 1 < Z.of_nat fuel) ts ->
  bert_is_schedulable fuel' true m ts = GDone true res' -> exists res, bert_is_schedulable fuel false m ts = GDone true res /\ below res res'.
Proof.
  intros fuel fuel' m ts res' Hm Hw Hf1 Hf H.
  apply (gfp_all_dominates (fun _ => true) (fun _ => true) (bert_rta fuel false m) (bert_rta fuel' true m)
    (fun t => wf_g t /\ t_deadline (g_task t) + 1 < Z.of_nat fuel)) with (done' := []); try assumption; try (apply Forall_nil || apply Forall2_nil).
  - intros t [X _]. exact X.
  - reflexivity.
  - intros. eapply bert_rta_spec; eassumption.
  - intros. eapply bert_rta_spec; eassumption.
  - intros hp hp' t r' [Wt Ft] Ohp Ohp' Hb Hr. pose proof Wt as [W1 [W2 [W3 [W4 W5]]]].
    destruct (bert_rta_spec _ _ _ _ _ _ Hm Ohp' Wt Hr) as [[_ [R1 R2]] [R3 R4]]. cbn [fst snd] in R1, R2.
    unfold bert_rta. rewrite (below_length _ _ Hb). destruct (Z.of_nat (length hp') <? m).
    + destruct (Z.ltb_spec (t_deadline (g_task t)) (t_cost (g_task t) + attr (g_blocked t))); [lia|]. eexists. split; [reflexivity|lia].
    + destruct R4 as [_ R4]. apply (grta_dominates (bert_demand false m hp t) (bert_demand true m hp' t)) with (lo' := t_cost (g_task t) + attr (g_blocked t)); try assumption; try lia.
      * intros. apply bert_demand_mono; try assumption; lia.
      * intros. apply bert_demand_ge; try assumption; lia.
      * intros x Hx. rewrite !bert_demand_eq by (assumption || lia). apply Z.add_le_mono_l. apply Z.div_le_mono; [lia|]. apply Z.max_le_compat_r.
        apply Z.sub_le_mono_r. clear Hr R4. induction Hb as [|a b hp hp' [E1 E2] Hb IH]; [cbn; lia|]. inversion_clear Ohp as [|? ? O1 O2]. inversion_clear Ohp' as [|? ? Q1 Q2].
        cbn [map zsum]. specialize (IH O2 Q2). rewrite !bert_term_wl by (assumption || lia). rewrite E1.
        destruct O1 as [[B1 [B2 [B3 [B4 _]]]] [B5 B6]]. rewrite E1 in *.
        enough (wl (t_cost (g_task (fst b))) (t_period (g_task (fst b))) (x + snd a - t_cost (g_task (fst b))) <=
          wl (t_cost (g_task (fst b))) (t_period (g_task (fst b))) (x + t_deadline (g_task (fst b)) - t_cost (g_task (fst b)))) by lia.
        apply wl_lipschitz; lia.
  - rewrite Forall_forall in *. intros t Ht. split; [apply Hw; assumption|apply Hf; assumption].
Qed.
