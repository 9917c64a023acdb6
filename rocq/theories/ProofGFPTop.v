(** From the recurrences to the model of bertogna.py and guan.py. *)
From Coq Require Import ZArith QArith List Bool Lia Permutation Sorted.
From Verif Require Import Base ModelTasks ModelFP ModelGFP SpecUni SpecQPA SpecGlobal SpecGFP ProofUni ProofEDF ProofGlobal ProofGEDF ProofGEDFRta ProofGFP ProofGFPSound.
Import ListNotations.
Open Scope Z_scope.

Lemma packed_wl : forall C T y, 0 <= C <= T -> 1 <= T -> packed C T y = wl C T y.
Proof.
  intros C T y HC HT. unfold packed.
  assert (G : forall K y, y <= Z.of_nat K -> sumf (fun j => Z.max 0 (Z.min C (y - Z.of_nat j * T))) K = wl C T y).
  { induction K; intros z Hz.
    - cbn. unfold wl. destruct (Z.ltb_spec z 0); [reflexivity|]. assert (z = 0) by lia. subst z. rewrite Z.div_0_l, Z.mod_0_l by lia. lia.
    - rewrite (sumf_split _ 1 K). cbn [sumf plus].
      rewrite (sumf_ext _ (fun j => Z.max 0 (Z.min C (z - T - Z.of_nat j * T)))) by (intros; do 2 f_equal; nia).
      rewrite IHK by lia. destruct (Z.le_gt_cases T z) as [L|L].
      + rewrite (wl_step C T z) by lia. lia.
      + assert (E : wl C T (z - T) = 0) by (unfold wl; destruct (Z.ltb_spec (z - T) 0); [reflexivity|lia]). rewrite E.
        destruct (Z.le_gt_cases 0 z).
        * rewrite wl_small by lia. lia.
        * unfold wl. destruct (Z.ltb_spec z 0); lia. }
  destruct (Z.le_gt_cases 0 y) as [L|L]; [apply G; lia|].
  replace (Z.to_nat y) with 0%nat by lia. cbn [sumf]. unfold wl. destruct (Z.ltb_spec y 0); [reflexivity|lia].
Qed.

(** ** The search loop *)
Section Loop.
  Variables (f : Z -> Z) (lo hi : Z).
  Hypothesis Hmono : forall x y, lo <= x -> x <= y -> f x <= f y.
  Hypothesis Hge : forall x, lo <= x -> lo <= f x.

  Lemma grta_accept : forall fuel time r, lo <= time -> time <= f time -> (forall x, lo <= x -> f x <= x -> time <= x) ->
    grta_loop fuel f hi time = Accepted r -> least_bound f lo r /\ r <= hi /\ f r = r.
  Proof.
    induction fuel; intros time r H0 H1 H2 H; [discriminate|]. cbn [grta_loop] in H.
    destruct (Z.leb_spec time hi) as [L|L]; [|discriminate]. destruct (Z.eqb_spec (f time) time) as [E|E].
    - injection H as <-. repeat split; try assumption; lia.
    - apply (IHfuel (f time)); [apply Hge; assumption|apply Hmono; lia| |assumption].
      intros x X1 X2. specialize (H2 x X1 X2). pose proof (Hmono time x H0 H2). lia.
  Qed.

  Lemma grta_reject : forall fuel time, lo <= time -> time <= f time -> (forall x, lo <= x -> f x <= x -> time <= x) ->
    grta_loop fuel f hi time = Rejected -> forall x, lo <= x -> f x <= x -> hi < x.
  Proof.
    induction fuel; intros time H0 H1 H2 H; [discriminate|]. cbn [grta_loop] in H.
    destruct (Z.leb_spec time hi) as [L|L].
    - destruct (Z.eqb_spec (f time) time) as [E|E]; [discriminate|].
      apply (IHfuel (f time)); [apply Hge; assumption|apply Hmono; lia| |assumption].
      intros x X1 X2. specialize (H2 x X1 X2). pose proof (Hmono time x H0 H2). lia.
    - intros x X1 X2. specialize (H2 x X1 X2). lia.
  Qed.

  Lemma grta_terminates : forall fuel time, lo <= time -> time <= f time -> hi - time + 1 < Z.of_nat fuel -> 0 < Z.of_nat fuel ->
    grta_loop fuel f hi time <> OutOfFuel.
  Proof.
    induction fuel; intros time H0 H1 H2 H3; [lia|]. cbn [grta_loop].
    destruct (Z.leb_spec time hi) as [L|L]; [|discriminate]. destruct (Z.eqb_spec (f time) time) as [E|E]; [discriminate|].
    apply IHfuel; [apply Hge; assumption|apply Hmono; lia|lia|lia].
  Qed.
End Loop.

(** ** all() over the tasks *)
Definition dg : gtask := GTask dt None None.
Definition da0 : ganalysed := (dg, 0).

Lemma gfp_all_shape : forall a rta todo done b res, gfp_all a rta done todo = GDone b res ->
  exists tl, res = done ++ tl /\ (exists rest, todo = map fst tl ++ rest /\ (b = true -> rest = []) /\
     (b = false -> exists t rest', rest = t :: rest' /\ a t = true /\ rta res t = Rejected)) /\
  forall k, (k < length tl)%nat -> a (fst (nth k tl da0)) = true /\
    rta (done ++ firstn k tl) (fst (nth k tl da0)) = Accepted (snd (nth k tl da0)).
Proof.
  intros a rta. induction todo as [|t todo IH]; intros done b res H; cbn [gfp_all] in H.
  - injection H as <- <-. exists []. split; [symmetry; apply app_nil_r|]. split; [|cbn; intros; lia].
    exists []. split; [reflexivity|]. split; [reflexivity|discriminate].
  - destruct (negb (a t)) eqn:Ea; [discriminate|]. apply negb_false_iff in Ea. destruct (rta done t) as [| |r] eqn:Er; [discriminate| |].
    + injection H as <- <-. exists []. split; [symmetry; apply app_nil_r|]. split; [|cbn; intros; lia].
      exists (t :: todo). split; [reflexivity|]. split; [discriminate|]. intros _. exists t, todo. auto.
    + destruct (IH _ _ _ H) as [tl [E1 [[rest [E2 [E3 E4]]] E5]]]. exists ((t, r) :: tl). split; [rewrite E1, <- app_assoc; reflexivity|].
      split; [exists rest; split; [cbn; rewrite E2; reflexivity|split; assumption]|].
      intros [|k] Hk; cbn [nth firstn fst snd length] in *.
      * rewrite app_nil_r. split; assumption.
      * specialize (E5 k ltac:(lia)). rewrite <- app_assoc in E5. exact E5.
Qed.

Lemma gfp_all_true : forall a rta ts res, gfp_all a rta [] ts = GDone true res ->
  map fst res = ts /\ forall k, (k < length res)%nat -> a (fst (nth k res da0)) = true /\
    rta (firstn k res) (fst (nth k res da0)) = Accepted (snd (nth k res da0)).
Proof.
  intros a rta ts res H. apply gfp_all_shape in H. destruct H as [tl [E1 [[rest [E2 [E3 _]]] E5]]]. cbn in E1. subst res.
  rewrite (E3 eq_refl), app_nil_r in E2. split; [symmetry; assumption|exact E5].
Qed.

(** ** Sums over the tasks of higher priority *)
Lemma zsum_nth_f : forall A (f : A -> Z) (d : A) l, zsum (map f l) = sumf (fun i => f (nth i l d)) (length l).
Proof.
  intros A f d. induction l as [|x l IH]; [reflexivity|]. cbn [map zsum length]. rewrite (sumf_split _ 1 (length l)). cbn [sumf plus nth].
  rewrite IH. lia.
Qed.

Lemma zsum_firstn_f : forall A (f : A -> Z) (d : A) l k, (k <= length l)%nat ->
  zsum (map f (firstn k l)) = sumf (fun i => f (nth i l d)) k.
Proof.
  intros A f d l k Hk. rewrite (zsum_nth_f _ _ d), firstn_length, Nat.min_l by assumption. apply sumf_ext. intros i Hi. f_equal.
  clear Hk. revert l i Hi. induction k; intros l i Hi; [lia|]. destruct l; [destruct i; reflexivity|]. destruct i; [reflexivity|]. cbn. apply IHk. lia.
Qed.


Lemma mod_form : forall x T, x - T * (x / T) = x mod T.
Proof. intros x T. destruct (Z.eq_dec T 0) as [->|H]; [rewrite Zmod_0_r, Z.mul_0_l; lia|]. pose proof (Z.div_mod x T H). lia. Qed.

Lemma workload_wla : forall t time, workload_function t time = wla (t_cost t) (t_period t) (time + t_deadline t - t_cost t).
Proof.
  intros t time. unfold workload_function, wla. rewrite mod_form. replace (time - t_cost t + t_deadline t) with (time + t_deadline t - t_cost t) by ring. ring.
Qed.

Lemma slack_wla : forall t r time, r <= t_deadline t -> slack_aware_workload_function t r time = wla (t_cost t) (t_period t) (time + r - t_cost t).
Proof.
  intros t r time H. unfold slack_aware_workload_function, wla. rewrite Z.max_r by lia.
  replace (time - t_cost t - (t_deadline t - r) + t_deadline t) with (time + r - t_cost t) by ring.
  replace (time - t_cost t + t_deadline t - (t_deadline t - r)) with (time + r - t_cost t) by ring. rewrite mod_form. ring.
Qed.

(** ** Bertogna *)
Definition wf_g (t : gtask) : Prop :=
  0 <= t_cost (g_task t) /\ 1 <= t_period (g_task t) /\ 0 <= t_deadline (g_task t) /\ t_deadline (g_task t) <= t_period (g_task t) /\
  0 <= attr (g_hpdirect t) <= attr (g_blocked t).

(** what the response time [r] of an analysed task is known to satisfy *)
Definition ok_a (a : ganalysed) : Prop :=
  wf_g (fst a) /\ t_cost (g_task (fst a)) <= snd a <= t_deadline (g_task (fst a)).

Definition bert_term (nosl : bool) (time : Z) (a : ganalysed) : Z :=
  if nosl then workload_function (g_task (fst a)) time else slack_aware_workload_function (g_task (fst a)) (snd a) time.

Lemma bert_term_wl : forall nosl time a, ok_a a -> 0 <= time ->
  bert_term nosl time a = wl (t_cost (g_task (fst a))) (t_period (g_task (fst a)))
    (time + (if nosl then t_deadline (g_task (fst a)) else snd a) - t_cost (g_task (fst a))).
Proof.
  intros nosl time a [H1 H2] Ht. unfold bert_term. destruct nosl.
  - rewrite workload_wla. apply wla_wl. lia.
  - rewrite slack_wla by lia. apply wla_wl. lia.
Qed.

Lemma bert_term_mono : forall nosl x y a, ok_a a -> 0 <= x -> x <= y -> bert_term nosl x a <= bert_term nosl y a.
Proof.
  intros nosl x y a Ha Hx Hy. rewrite !bert_term_wl by (assumption || lia). destruct Ha as [[A1 [A2 [A3 [A4 _]]]] [A5 A6]].
  apply wl_lipschitz; lia.
Qed.

Lemma bert_term_nonneg : forall nosl x a, ok_a a -> 0 <= x -> 0 <= bert_term nosl x a.
Proof.
  intros nosl x a Ha Hx. rewrite bert_term_wl by (assumption || lia). destruct Ha as [[A1 [A2 _]] _]. apply wl_nonneg; lia.
Qed.

(** the interference after the correction for direct blocking *)
Lemma bert_demand_eq : forall nosl m hp t time, 0 <= time -> Forall ok_a hp -> wf_g t ->
  bert_demand nosl m hp t time = t_cost (g_task t) + attr (g_blocked t) +
    Z.max (zsum (map (bert_term nosl time) hp) - attr (g_hpdirect t)) 0 / m.
Proof.
  intros nosl m hp t time Ht Hhp [W1 [W2 [W3 [W4 W5]]]]. unfold bert_demand. fold (bert_term nosl time). 
  change (fun a : ganalysed => if nosl then workload_function (g_task (fst a)) time else slack_aware_workload_function (g_task (fst a)) (snd a) time)
    with (bert_term nosl time).
  destruct (g_hpdirect t) as [b|]; cbn [attr]; [reflexivity|]. rewrite Z.sub_0_r, Z.max_l; [reflexivity|].
  apply zsum_nonneg. intros x Hx. apply in_map_iff in Hx. destruct Hx as [a [<- Ha]].
  rewrite Forall_forall in Hhp. apply bert_term_nonneg; [apply Hhp; assumption|assumption].
Qed.

Lemma bert_demand_mono : forall nosl m hp t x y, 1 <= m -> Forall ok_a hp -> wf_g t -> 0 <= x -> x <= y ->
  bert_demand nosl m hp t x <= bert_demand nosl m hp t y.
Proof.
  intros nosl m hp t x y Hm Hhp Ht Hx Hy. rewrite !bert_demand_eq by (assumption || lia).
  apply Z.add_le_mono_l. apply Z.div_le_mono; [lia|]. apply Z.max_le_compat_r. apply Z.sub_le_mono_r. apply zsum_map_le.
  intros a Ha. rewrite Forall_forall in Hhp. apply bert_term_mono; [apply Hhp; assumption|assumption|assumption].
Qed.

Lemma bert_demand_ge : forall nosl m hp t x, 1 <= m -> Forall ok_a hp -> wf_g t -> 0 <= x ->
  t_cost (g_task t) + attr (g_blocked t) <= bert_demand nosl m hp t x.
Proof.
  intros nosl m hp t x Hm Hhp Ht Hx. rewrite bert_demand_eq by assumption.
  pose proof (Z.div_pos (Z.max (zsum (map (bert_term nosl x) hp) - attr (g_hpdirect t)) 0) m ltac:(lia) ltac:(lia)). lia.
Qed.

Lemma bert_rta_spec : forall fuel nosl m hp t r, 1 <= m -> Forall ok_a hp -> wf_g t -> bert_rta fuel nosl m hp t = Accepted r ->
  ok_a (t, r) /\ t_cost (g_task t) + attr (g_blocked t) <= r /\
  (if Z.of_nat (length hp) <? m then r = t_cost (g_task t) + attr (g_blocked t)
   else least_bound (bert_demand nosl m hp t) (t_cost (g_task t) + attr (g_blocked t)) r /\ bert_demand nosl m hp t r = r).
Proof.
  intros fuel nosl m hp t r Hm Hhp Ht H. pose proof Ht as [W1 [W2 [W3 [W4 W5]]]]. unfold bert_rta in H. destruct (Z.of_nat (length hp) <? m) eqn:E.
  - destruct (Z.ltb_spec (t_deadline (g_task t)) (t_cost (g_task t) + attr (g_blocked t))); [discriminate|]. injection H as <-.
    split; [|split; [lia|reflexivity]]. split; [assumption|cbn [fst snd]; lia].
  - apply grta_accept with (lo := t_cost (g_task t) + attr (g_blocked t)) in H.
    + destruct H as [[H1 [H2 H3]] [H4 H5]]. split; [split; [assumption|cbn [fst snd]; lia]|]. split; [assumption|]. split; [split; [assumption|split; assumption]|assumption].
    + intros. apply bert_demand_mono; try assumption; lia.
    + intros. apply bert_demand_ge; try assumption; lia.
    + lia.
    + apply bert_demand_ge; try assumption; lia.
    + intros; assumption.
Qed.

Lemma Forall_firstn : forall A (P : A -> Prop) l k, (forall i d, (i < k)%nat -> (i < length l)%nat -> P (nth i l d)) -> Forall P (firstn k l).
Proof.
  intros A P. induction l as [|x l IH]; intros k H; [destruct k; constructor|]. destruct k; [constructor|]. cbn. constructor.
  - apply (H 0%nat x); cbn; lia.
  - apply IH. intros i d Hi Hl. apply (H (S i) d); cbn; lia.
Qed.

Lemma wf_g_nth : forall ts (res : list ganalysed) k, Forall wf_g ts -> map fst res = ts -> (k < length res)%nat -> wf_g (fst (nth k res da0)).
Proof.
  intros ts res k Hw E Hk. rewrite Forall_forall in Hw. apply Hw. rewrite <- E. apply in_map. apply nth_In. assumption.
Qed.

(** all analysed tasks have good response times *)
Lemma all_ok : forall rta ts res, (forall hp t r, Forall ok_a hp -> wf_g t -> rta hp t = Accepted r -> ok_a (t, r)) ->
  Forall wf_g ts -> map fst res = ts ->
  (forall k, (k < length res)%nat -> rta (firstn k res) (fst (nth k res da0)) = Accepted (snd (nth k res da0))) ->
  forall k, (k < length res)%nat -> ok_a (nth k res da0).
Proof.
  intros rta ts res Hr Hw E H. induction k as [k IH] using (well_founded_induction lt_wf). intros Hk.
  rewrite (surjective_pairing (nth k res da0)). apply (Hr (firstn k res)); [|eapply wf_g_nth; eassumption|apply H; assumption].
  apply Forall_firstn. intros i d Hi Hl. rewrite (nth_indep _ d da0) by assumption. apply IH; assumption.
Qed.

Definition ets (ts : list gtask) : list etask := map (fun t => e_of (g_task t)) ts.

Lemma et_ets : forall ts k, et (ets ts) k = e_of (g_task (nth k ts dg)).
Proof. intros. unfold et, ets. change (ETask 0 1 0) with (e_of (g_task dg)). apply (map_nth (fun t => e_of (g_task t))). Qed.

Lemma wf_ets : forall ts, Forall wf_g ts -> Forall wf_etask (ets ts).
Proof.
  intros ts H. unfold ets. apply Forall_map. eapply Forall_impl; [|exact H]. intros t [W1 [W2 [W3 _]]]. unfold wf_etask, e_of. cbn. lia.
Qed.

Lemma fst_nth : forall (res : list ganalysed) k, nth k (map fst res) dg = fst (nth k res da0).
Proof. intros. change dg with (fst da0). apply map_nth. Qed.

Lemma firstn_len : forall A (l : list A) k, (k < length l)%nat -> length (firstn k l) = k.
Proof. intros. rewrite firstn_length, Nat.min_l; lia. Qed.

Lemma div_lt_mul : forall a m x, 1 <= m -> a / m <= x -> a < m * (x + 1).
Proof. intros a m x Hm H. pose proof (div_spec a m ltac:(lia)). nia. Qed.

Lemma bert_safe : forall fuel nosl (m : nat) ts res, (1 <= m)%nat -> Forall wf_g ts ->
  bert_is_schedulable fuel nosl (Z.of_nat m) ts = GDone true res ->
  forall s sc other direct, legal_edf (ets ts) s -> gvalid (length ts) m s sc -> gfp_blocking (length ts) m s sc other direct ->
  blocked_within (length ts) other direct (fun i => attr (g_blocked (nth i ts dg))) (fun i => attr (g_hpdirect (nth i ts dg))) ->
  forall k, (k < length res)%nat -> resp s sc k (snd (nth k res da0)).
Proof.
  intros fuel nosl m ts res Hm Hw H s sc other direct Hl Hv Hp Hb. apply gfp_all_true in H. destruct H as [E H].
  assert (Len : length res = length ts) by (rewrite <- E, map_length; reflexivity).
  assert (Hrta : forall k, (k < length res)%nat -> bert_rta fuel nosl (Z.of_nat m) (firstn k res) (fst (nth k res da0)) = Accepted (snd (nth k res da0))) by (intros; apply H; assumption).
  assert (Ok : forall k, (k < length res)%nat -> ok_a (nth k res da0)).
  { apply (all_ok (bert_rta fuel nosl (Z.of_nat m)) ts); try assumption. intros. eapply bert_rta_spec; try eassumption. lia. }
  assert (Lets : length (ets ts) = length ts) by apply map_length.
  induction k as [k IH] using (well_founded_induction lt_wf). intros Hk.
  assert (Hhp : Forall ok_a (firstn k res)).
  { apply Forall_firstn. intros i d Hi Hl'. rewrite (nth_indep _ d da0) by assumption. apply Ok. assumption. }
  pose proof (wf_g_nth ts res k Hw E Hk) as Wk. assert (Hm1 : 1 <= Z.of_nat m) by lia. destruct (bert_rta_spec _ _ _ _ _ _ Hm1 Hhp Wk (Hrta k Hk)) as [[_ O1] [O2 O3]].
  cbn [fst snd] in O1. pose proof Wk as [W1 [W2 [W3 [W4 W5]]]].
  assert (En : forall i, (i < length res)%nat -> et (ets ts) i = e_of (g_task (fst (nth i res da0)))).
  { intros i Hi. rewrite et_ets, <- fst_nth, E. reflexivity. }
  assert (Nt : forall i, nth i ts dg = fst (nth i res da0)) by (intros; rewrite <- E; apply fst_nth).
  rewrite firstn_len in O3 by assumption.
  apply (bert_sound (ets ts) m s sc (wf_ets ts Hw) Hl) with (other := other) (direct := direct)
    (b := fun i => attr (g_blocked (nth i ts dg))) (hd := fun i => attr (g_hpdirect (nth i ts dg))) (R := fun i => snd (nth i res da0)); rewrite ?Lets; try assumption; try lia.
  - intros i Hi. rewrite En by lia. cbn [e_of e_cost e_period]. destruct (Ok i ltac:(lia)) as [[V1 [V2 [V3 [V4 _]]]] [V5 V6]].
    split; [apply IH; lia|]. lia.
  - rewrite En by assumption. rewrite Nt. cbn [e_of e_cost]. lia.
  - rewrite En by assumption. cbn [e_of e_period]. lia.
  - rewrite Nt. lia.
  - rewrite En by assumption. rewrite Nt. cbn [e_of e_cost].
    destruct (Z.ltb_spec (Z.of_nat k) (Z.of_nat m)) as [Lt|Ge]; [left; lia|right]. destruct O3 as [_ O3].
    rewrite bert_demand_eq in O3 by (assumption || lia).
    set (tk := fst (nth k res da0)) in *. set (r := snd (nth k res da0)) in *.
    apply Z.le_lt_trans with (Z.max (zsum (map (bert_term nosl r) (firstn k res)) - attr (g_hpdirect tk)) 0).
    + apply Z.max_le_compat_r. apply Z.sub_le_mono_r. rewrite (zsum_firstn_f _ _ da0) by lia. apply sumf_le. intros i Hi.
      destruct (Ok i ltac:(lia)) as [[V1 [V2 [V3 [V4 V4']]]] [V5 V6]].
      rewrite bert_term_wl by (first [apply Ok; lia|lia]). cbv beta; rewrite En by lia; cbn [e_of e_cost e_period].
      apply wl_lipschitz; [lia|lia|]. destruct nosl; lia.
    + replace (r - t_cost (g_task tk) - attr (g_blocked tk) + 1) with ((r - t_cost (g_task tk) - attr (g_blocked tk)) + 1) by ring.
      apply div_lt_mul; lia.
Qed.

Lemma grta_fuel : forall f lo hi fuel, (forall x y, lo <= x -> x <= y -> f x <= f y) -> (forall x, lo <= x -> lo <= f x) ->
  hi - lo + 1 < Z.of_nat fuel -> (1 <= fuel)%nat -> grta_loop fuel f hi lo <> OutOfFuel.
Proof. intros. apply grta_terminates with (lo := lo); try assumption; try lia. apply H0; lia. Qed.

(** ** Termination of all() *)
Lemma gfp_all_total : forall a rta todo done, Forall wf_g todo -> Forall ok_a done ->
  (forall hp t, In t todo -> Forall ok_a hp -> wf_g t -> rta hp t <> OutOfFuel) ->
  (forall hp t r, Forall ok_a hp -> wf_g t -> rta hp t = Accepted r -> ok_a (t, r)) ->
  gfp_all a rta done todo <> GFuel.
Proof.
  intros a rta. induction todo as [|t todo IH]; intros done Hw Hd Hf Hr; cbn [gfp_all]; [discriminate|].
  inversion_clear Hw as [|? ? Wt Wr]. destruct (negb (a t)); [discriminate|]. destruct (rta done t) as [| |r] eqn:E.
  - exfalso. apply (Hf done t (or_introl eq_refl) Hd Wt E).
  - discriminate.
  - apply IH; try assumption.
    + apply Forall_app. split; [assumption|]. constructor; [eapply Hr; eassumption|constructor].
    + intros hp t' Ht'. apply Hf. right. assumption.
Qed.

Lemma bert_total : forall fuel nosl m ts, 1 <= m -> Forall wf_g ts -> (1 <= fuel)%nat -> Forall (fun t => t_deadline (g_task t) + 1 < Z.of_nat fuel) ts ->
  bert_is_schedulable fuel nosl m ts <> GFuel.
Proof.
  intros fuel nosl m ts Hm Hw Hf1 Hf. apply gfp_all_total; [assumption|constructor| |intros; eapply bert_rta_spec; eassumption].
  intros hp t Hin Hhp Ht. rewrite Forall_forall in Hf. specialize (Hf t Hin). pose proof Ht as [W1 [W2 [W3 [W4 W5]]]]. unfold bert_rta.
  destruct (Z.of_nat (length hp) <? m); [destruct (t_deadline (g_task t) <? t_cost (g_task t) + attr (g_blocked t)); discriminate|].
  apply grta_fuel; try lia.
  - intros. apply bert_demand_mono; try assumption; lia.
  - intros. apply bert_demand_ge; try assumption; lia.
Qed.
