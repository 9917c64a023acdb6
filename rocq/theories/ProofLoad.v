(** The LOAD test in C++: the computed load bounds the demand, and an accepted set
    meets all deadlines. *)
From Coq Require Import ZArith QArith Qround List Bool Lia Lqa Wf_nat Permutation Sorted.
From Verif Require Import Base ModelTasks SpecTasks ProofTasks SpecUni SpecQPA SpecGlobal ProofUni ProofEDF ProofGlobal ProofGFB ModelNative ModelGEDF ModelGEDFNative
  ProofGEDF ProofGEDFNative ProofBusy ProofBAK ModelLA ProofLA ProofNB ModelFFDBF ModelFFDBFNative ProofFFDBFNative ModelLoad.
Import ListNotations.
Open Scope Z_scope.

Lemma Qle_bool_false : forall a b, Qle_bool a b = false -> (b < a)%Q.
Proof. intros a b H. apply Qnot_le_lt. intros X. apply Qle_bool_iff in X. congruence. Qed.

(** ** Demand *)
Lemma bd_nonneg : forall t x, nb_ok t -> 0 <= bound_demand t x.
Proof.
  intros t x [T1 [T2 T3]]. unfold bound_demand. destruct (Z.ltb_spec (x - n_deadline t) 0); [lia|].
  assert (0 <= (x - n_deadline t) / n_period t) by (apply Z.div_pos; lia). nia.
Qed.

(** n jobs whose deadlines fit are counted *)
Lemma bd_ge : forall t x N, nb_ok t -> 0 <= N -> (N - 1) * n_period t + n_deadline t <= x -> N * n_wcet t <= bound_demand t x.
Proof.
  intros t x N [T1 [T2 T3]] HN H. unfold bound_demand. destruct (Z.ltb_spec (x - n_deadline t) 0) as [L|L].
  - assert (N = 0) by nia. subst. lia.
  - assert (N - 1 <= (x - n_deadline t) / n_period t) by (apply Z.div_le_lower_bound; lia). nia.
Qed.

Lemma bd_line : forall t x, nb_ok t -> n_deadline t <= x -> bound_demand t x * n_period t <= n_wcet t * (n_period t + x - n_deadline t).
Proof.
  intros t x [T1 [T2 T3]] H. unfold bound_demand. destruct (Z.ltb_spec (x - n_deadline t) 0); [lia|].
  pose proof (Z.mul_div_le (x - n_deadline t) (n_period t) ltac:(lia)). nia.
Qed.

Lemma bd_density : forall t x, nb_ok t -> 0 <= x -> bound_demand t x * n_deadline t <= n_wcet t * x.
Proof.
  intros t x [T1 [T2 T3]] H. unfold bound_demand. destruct (Z.ltb_spec (x - n_deadline t) 0); [nia|].
  pose proof (Z.mul_div_le (x - n_deadline t) (n_period t) ltac:(lia)).
  set (j := (x - n_deadline t) / n_period t) in *. assert (0 <= j) by (apply Z.div_pos; lia).
  assert ((j + 1) * n_deadline t <= x) by nia. nia.
Qed.

Definition total_demand (ts : ntaskset) (x : Z) : Z := zsum (map (fun t => bound_demand t x) ts).

Lemma total_demand_sum : forall ts x, ns_bound_demand ts x = total_demand ts x.
Proof.
  intros ts x. unfold ns_bound_demand, total_demand. enough (H : forall a, fold_left (fun d t => d + bound_demand t x) ts a = a + zsum (map (fun t => bound_demand t x) ts)) by (rewrite H; lia).
  induction ts as [|t ts IH]; intros a; cbn; [lia|]. rewrite IH. lia.
Qed.

(** ** The sorted test points *)
Lemma insert_time_in : forall x y l, In y (insert_time x l) <-> y = x \/ In y l.
Proof.
  intros x y l. induction l as [|z l IH]; cbn; [intuition|]. destruct (x <=? z); cbn; intuition.
Qed.
Lemma sort_times_in : forall y l, In y (sort_times l) <-> In y l.
Proof. intros y l. induction l as [|x l IH]; cbn; [tauto|]. rewrite insert_time_in, IH. intuition. Qed.
Lemma insert_time_sorted : forall x l, Sorted Z.le l -> Sorted Z.le (insert_time x l).
Proof.
  intros x l. induction l as [|z l IH]; cbn; intros H; [repeat constructor|]. destruct (Z.leb_spec x z); [constructor; [assumption|constructor; lia]|].
  inversion H as [|? ? H1 H2]; subst. constructor; [auto|]. destruct l as [|w l]; cbn; [constructor; lia|]. inversion H2; subst.
  destruct (x <=? w); constructor; lia.
Qed.
Lemma sort_times_sorted : forall l, Sorted Z.le (sort_times l).
Proof. induction l; cbn; [constructor|]. apply insert_time_sorted. assumption. Qed.

(** the scan returns the density or something not below the load at every point *)
Lemma scan_spec : forall ts ks den times last load, Sorted Z.le times -> (forall x, In x times -> last <= x) -> (forall x, In x times -> 0 < x) ->
  (last = 0 \/ (load_at_point ts ks last <= load)%Q) ->
  load_scan ts ks den times last load = den \/
  ((load <= load_scan ts ks den times last load)%Q /\ forall x, In x times -> (load_at_point ts ks x <= load_scan ts ks den times last load)%Q).
Proof.
  intros ts ks den times. induction times as [|t r IH]; intros last load Hs Hge Hpos Hlast; cbn [load_scan].
  - right. split; [lra|]. intros x [].
  - inversion Hs as [|? ? Hs' Hd]; subst.
    assert (Hr : forall x, In x r -> t <= x).
    { apply Sorted_StronglySorted in Hs; [|intros ? ? ?; lia]. inversion Hs; subst. rewrite Forall_forall in *. assumption. }
    destruct (Z.ltb_spec last t) as [L|L].
    + destruct (Qle_bool (load_at_point ts ks t) den) eqn:E; cbn [negb]; [|left; reflexivity].
      set (load' := if negb (Qle_bool (load_at_point ts ks t) load) then load_at_point ts ks t else load).
      assert (X : (load <= load' /\ load_at_point ts ks t <= load')%Q).
      { unfold load'. destruct (Qle_bool (load_at_point ts ks t) load) eqn:F; cbn [negb].
        - apply Qle_bool_iff in F. split; [lra|assumption].
        - apply Qle_bool_false in F. split; lra. }
      destruct X as [X1 X2]. destruct (IH t load' Hs' Hr ltac:(intros; apply Hpos; right; assumption) (or_intror X2)) as [H|[H1 H2]]; [left; assumption|right].
      split; [lra|]. intros x [<- |Hx]; [lra|auto].
    + assert (t = last) by (specialize (Hge t (or_introl eq_refl)); lia). subst t.
      assert (0 < last) by (apply Hpos; left; reflexivity). destruct Hlast as [|Hlast]; [lia|].
      destruct (IH last load Hs' Hr ltac:(intros; apply Hpos; right; assumption) (or_intror Hlast)) as [H0|[H1 H2]]; [left; assumption|right].
      split; [lra|]. intros x [<- |Hx]; [lra|auto].
Qed.

(** ** The computed load bounds the demand at every time *)
Definition points (ts : ntaskset) (ks : list Z) : list Z := concat (map (fun p => task_times (fst p) (snd p)) (combine ts ks)).

Lemma points_in : forall ts ks x, In x (points ts ks) <-> exists t k j, In (t, k) (combine ts ks) /\ (j <= Z.to_nat k)%nat /\ x = n_deadline t + Z.of_nat j * n_period t.
Proof.
  intros ts ks x. unfold points. rewrite in_concat. split.
  - intros [l [Hl Hx]]. apply in_map_iff in Hl. destruct Hl as [[t k] [<- Hp]]. cbn [fst snd] in Hx. unfold task_times in Hx. apply in_map_iff in Hx.
    destruct Hx as [j [<- Hj]]. apply in_seq in Hj. exists t, k, j. split; [assumption|]. split; [lia|reflexivity].
  - intros [t [k [j [Hp [Hj ->]]]]]. exists (task_times t k). split; [apply in_map_iff; exists (t, k); auto|].
    unfold task_times. apply in_map_iff. exists j. split; [reflexivity|apply in_seq; lia].
Qed.

Lemma lap_sum : forall ts ks x, (load_at_point ts ks x == qsum (map (fun p => task_approx_load (fst p) x (snd p)) (combine ts ks)))%Q.
Proof. intros. unfold load_at_point. rewrite fold_qsum. ring. Qed.

Lemma greatest_le : forall l (t : Z), (exists x, In x l /\ x <= t) -> exists x, In x l /\ x <= t /\ forall y, In y l -> y <= t -> y <= x.
Proof.
  induction l as [|a l IH]; intros t [x [Hx Lx]]; [destruct Hx|].
  destruct (existsb (fun y => y <=? t) l) eqn:E.
  - apply existsb_exists in E. destruct E as [y [Hy Ly]]. apply Z.leb_le in Ly. destruct (IH t (ex_intro _ y (conj Hy Ly))) as [z [Hz [Lz Mz]]].
    destruct (Z.leb_spec a t).
    + destruct (Z.leb_spec a z); [exists z|exists a].
      * split; [right; assumption|]. split; [assumption|]. intros w [<- |Hw] ?; [assumption|auto].
      * split; [left; reflexivity|]. split; [assumption|]. intros w [<- |Hw] L; [lia|]. specialize (Mz w Hw L). lia.
    + exists z. split; [right; assumption|]. split; [assumption|]. intros w [<- |Hw] ?; [lia|auto].
  - assert (N : forall y, In y l -> t < y).
    { intros y Hy. destruct (Z.leb_spec y t) as [X|X]; [|assumption]. assert (existsb (fun y => y <=? t) l = true); [|congruence].
      apply existsb_exists. exists y. split; [assumption|apply Z.leb_le; assumption]. }
    destruct Hx as [<- |Hx]; [|specialize (N x Hx); lia]. exists a. split; [left; reflexivity|]. split; [assumption|].
    intros w [<- |Hw] L; [lia|]. specialize (N w Hw). lia.
Qed.

(** the demand of one task, relative to the last test point before t *)
Lemma task_demand_at : forall ts ks t k x p, nb_ok t -> 0 <= k -> In (t, k) (combine ts ks) -> 0 < p -> p <= x ->
  (forall y, In y (points ts ks) -> y <= x -> y <= p) ->
  bound_demand t x * p <= approx_demand t p k * x.
Proof.
  intros ts ks t k x p Hok Hk Hin Hp Hpx Hmax. pose proof Hok as [T1 [T2 T3]]. unfold approx_demand.
  assert (Hpt : forall j, 0 <= j <= k -> n_deadline t + j * n_period t <= x -> n_deadline t + j * n_period t <= p).
  { intros j Hj L. apply Hmax; [|assumption]. apply points_in. exists t, k, (Z.to_nat j). split; [assumption|]. split; [lia|]. rewrite Z2Nat.id by lia. reflexivity. }
  destruct (Z.ltb_spec p (k * n_period t + n_deadline t)) as [L|L].
  - assert (Lx : x < k * n_period t + n_deadline t).
    { destruct (Z.lt_ge_cases x (k * n_period t + n_deadline t)); [assumption|]. specialize (Hpt k ltac:(lia) ltac:(lia)). lia. }
    assert (E : bound_demand t x = bound_demand t p); [|rewrite E; pose proof (bd_nonneg t p Hok); nia].
    unfold bound_demand. destruct (Z.ltb_spec (x - n_deadline t) 0) as [X|X].
    + destruct (Z.ltb_spec (p - n_deadline t) 0); [reflexivity|lia].
    + set (j := (x - n_deadline t) / n_period t). pose proof (Z.mul_div_le (x - n_deadline t) (n_period t) ltac:(lia)) as J1. fold j in J1.
      assert (J0 : 0 <= j) by (apply Z.div_pos; lia).
      assert (J2 : j < k) by (apply Z.div_lt_upper_bound; lia).
      pose proof (Z.mul_succ_div_gt (x - n_deadline t) (n_period t) ltac:(lia)) as J3. fold j in J3.
      specialize (Hpt j ltac:(lia) ltac:(lia)). destruct (Z.ltb_spec (p - n_deadline t) 0); [nia|].
      replace ((p - n_deadline t) / n_period t) with j; [reflexivity|]. apply Z.div_unique with (r := p - n_deadline t - n_period t * j); nia.
  - assert (Hd : n_deadline t <= p) by nia. pose proof (bd_line t x Hok ltac:(lia)) as B.
    pose proof (cdiv_spec ((p - n_deadline t) * n_wcet t) (n_period t) ltac:(lia)) as [_ C].
    set (a := cdiv ((p - n_deadline t) * n_wcet t) (n_period t)) in *.
    set (b := bound_demand t x) in *. set (CC := n_wcet t) in *. set (T := n_period t) in *. set (D := n_deadline t) in *.
    assert (A : CC * (T + p - D) <= (a + CC) * T) by nia.
    apply (Z.mul_le_mono_pos_l _ _ T); [lia|].
    assert (B' : b * T * p <= CC * (T + x - D) * p) by (apply Z.mul_le_mono_nonneg_r; lia).
    assert (A' : CC * (T + p - D) * x <= (a + CC) * T * x) by (apply Z.mul_le_mono_nonneg_r; lia).
    assert (M : CC * (T + x - D) * p <= CC * (T + p - D) * x); [|nia].
    assert ((T - D) * p <= (T - D) * x) by (apply Z.mul_le_mono_nonneg_l; lia). nia.
Qed.

Lemma qsum_scale : forall (l : list (ntask * Z)) (f : ntask * Z -> Z) (g : ntask * Z -> Q) c, (forall p, In p l -> (inject_Z (f p) <= g p * c)%Q) ->
  (inject_Z (zsum (map f l)) <= qsum (map g l) * c)%Q.
Proof.
  induction l as [|p l IH]; intros f g c H; cbn [map zsum qsum fold_right]; [change (inject_Z 0) with 0%Q; lra|].
  fold (zsum (map f l)) (qsum (map g l)). rewrite inject_Z_plus. specialize (IH f g c ltac:(intros; apply H; right; assumption)). pose proof (H p (or_introl eq_refl)). lra.
Qed.

Lemma combine_fst_sum : forall (ts : ntaskset) (ks : list Z) f, length ks = length ts -> zsum (map (fun p => f (fst p)) (combine ts ks)) = zsum (map f ts).
Proof. induction ts as [|t ts IH]; intros [|k ks] f H; cbn in *; try discriminate; [reflexivity|]. rewrite IH by lia. reflexivity. Qed.

Lemma demand_at_point : forall ts ks x p, Forall nb_ok ts -> Forall (fun k => 0 <= k) ks -> length ks = length ts -> 0 < p -> p <= x ->
  (forall y, In y (points ts ks) -> y <= x -> y <= p) -> (inject_Z (total_demand ts x) <= load_at_point ts ks p * inject_Z x)%Q.
Proof.
  intros ts ks x p Hok Hks Hlen Hp Hpx Hmax. rewrite lap_sum. unfold total_demand. rewrite <- (combine_fst_sum ts ks (fun t => bound_demand t x) Hlen).
  apply (qsum_scale (combine ts ks) (fun p0 => bound_demand (fst p0) x) (fun p0 => task_approx_load (fst p0) p (snd p0))). intros [t k] Hin. cbn [fst snd].
  unfold task_approx_load. destruct (Z.ltb_spec 0 p); [|lia].
  rewrite Forall_forall in Hok, Hks. pose proof (in_combine_l _ _ _ _ Hin) as I1. pose proof (in_combine_r _ _ _ _ Hin) as I2.
  pose proof (task_demand_at ts ks t k x p (Hok t I1) (Hks k I2) Hin Hp Hpx Hmax) as B. rewrite Zle_Qle, !inject_Z_mult in B.
  assert (P : (0 < inject_Z p)%Q) by (change 0%Q with (inject_Z 0); rewrite <- Zlt_Qlt; lia).
  setoid_replace (inject_Z (approx_demand t p k) / inject_Z p * inject_Z x)%Q with (inject_Z (approx_demand t p k) * inject_Z x / inject_Z p)%Q by (field; lra).
  apply Qle_shift_div_l; [assumption|]. exact B.
Qed.

Lemma demand_density : forall ts x, Forall nb_ok ts -> 0 <= x -> (inject_Z (total_demand ts x) <= ns_density ts * inject_Z x)%Q.
Proof.
  intros ts x Hok Hx. unfold ns_density. rewrite fold_qsum, Qplus_0_l. unfold total_demand. induction Hok as [|t ts Ht Hok IH]; cbn [map zsum qsum fold_right].
  - change (inject_Z 0) with 0%Q. lra.
  - fold (zsum (map (fun t => bound_demand t x) ts)) (qsum (map n_density ts)). rewrite inject_Z_plus.
    pose proof (bd_density t x Ht Hx) as B. destruct Ht as [T1 [T2 T3]]. rewrite Zle_Qle, !inject_Z_mult in B.
    assert (P : (0 < inject_Z (n_deadline t))%Q) by (change 0%Q with (inject_Z 0); rewrite <- Zlt_Qlt; lia).
    assert (X : (inject_Z (bound_demand t x) <= n_density t * inject_Z x)%Q); [|lra].
    unfold n_density, frac. setoid_replace (inject_Z (n_wcet t) / inject_Z (n_deadline t) * inject_Z x)%Q with (inject_Z (n_wcet t) * inject_Z x / inject_Z (n_deadline t))%Q by (field; lra).
    apply Qle_shift_div_l; assumption.
Qed.

Lemma total_zero : forall ts x, (forall t, In t ts -> x < n_deadline t) -> total_demand ts x = 0.
Proof.
  intros ts x H. unfold total_demand. induction ts as [|t ts IH]; [reflexivity|]. cbn. rewrite IH by (intros; apply H; right; assumption).
  unfold bound_demand. specialize (H t (or_introl eq_refl)). destruct (Z.ltb_spec (x - n_deadline t) 0); lia.
Qed.

Lemma ns_util_nonneg : forall ts, Forall nb_ok ts -> (0 <= ns_util ts)%Q.
Proof.
  intros ts Hok. unfold ns_util. rewrite fold_qsum, Qplus_0_l. induction Hok as [|t ts [T1 [T2 T3]] Hok IH]; cbn; [lra|]. fold (qsum (map n_util ts)).
  assert (P : (0 < inject_Z (n_period t))%Q) by (change 0%Q with (inject_Z 0); rewrite <- Zlt_Qlt; lia).
  assert (C : (0 <= inject_Z (n_wcet t))%Q) by (change 0%Q with (inject_Z 0); rewrite <- Zle_Qle; lia).
  assert (0 <= n_util t)%Q by (unfold n_util, frac; apply Qle_shift_div_l; [assumption|lra]). lra.
Qed.

Lemma in_combine_ex : forall (ts : ntaskset) (ks : list Z) t, length ks = length ts -> In t ts -> exists k, In (t, k) (combine ts ks).
Proof.
  induction ts as [|u ts IH]; intros [|k ks] t L H; cbn in *; try discriminate; [destruct H|]. destruct H as [<- |H]; [exists k; auto|].
  destruct (IH ks t ltac:(lia) H) as [k' H']. exists k'. auto.
Qed.

Theorem approx_load_bounds : forall ts ks eps x, Forall nb_ok ts -> Forall (fun k => 0 <= k) ks -> length ks = length ts -> (0 <= eps)%Q -> 0 < x ->
  (inject_Z (total_demand ts x) <= approx_load_k ts ks eps * inject_Z x)%Q.
Proof.
  intros ts ks eps x Hok Hks Hlen He Hx. pose proof (demand_density ts x Hok ltac:(lia)) as Dd. unfold approx_load_k.
  assert (X0 : (0 < inject_Z x)%Q) by (change 0%Q with (inject_Z 0); rewrite <- Zlt_Qlt; lia).
  destruct (Qle_bool (ns_density ts) (ns_util ts)) eqn:E; cbn [negb].
  - apply Qle_bool_iff in E. pose proof (Qmult_le_compat_r _ _ (inject_Z x) E ltac:(lra)). lra.
  - fold (points ts ks). set (l := sort_times (points ts ks)).
    assert (Hpos : forall y, In y l -> 0 < y).
    { intros y Hy. unfold l in Hy. apply sort_times_in, points_in in Hy. destruct Hy as [t [k [j [Hp [_ ->]]]]]. apply in_combine_l in Hp. rewrite Forall_forall in Hok.
      destruct (Hok t Hp) as [? [? ?]]. nia. }
    destruct (scan_spec ts ks (ns_density ts) l 0 (ns_util ts + eps)%Q) as [R|[R1 R2]]; [apply sort_times_sorted|intros y Hy; specialize (Hpos y Hy); lia|assumption|left; reflexivity|rewrite R; exact Dd|].
    set (r := load_scan _ _ _ _ _ _) in *.
    destruct (existsb (fun y => y <=? x) l) eqn:Ex.
    + apply existsb_exists in Ex. destruct Ex as [y [Hy Ly]]. apply Z.leb_le in Ly.
      destruct (greatest_le l x (ex_intro _ y (conj Hy Ly))) as [p [Hp [Lp Mp]]].
      assert (B : (inject_Z (total_demand ts x) <= load_at_point ts ks p * inject_Z x)%Q).
      { apply demand_at_point; try assumption; [apply Hpos; assumption|]. intros z Hz. apply Mp. apply sort_times_in. assumption. }
      pose proof (Qmult_le_compat_r _ _ (inject_Z x) (R2 p Hp) ltac:(lra)). lra.
    + rewrite total_zero.
      * change (inject_Z 0) with 0%Q. pose proof (ns_util_nonneg ts Hok). assert (0 <= r)%Q by lra. apply Qmult_le_0_compat; lra.
      * intros t Ht. destruct (Z.lt_ge_cases x (n_deadline t)); [assumption|exfalso]. destruct (in_combine_ex ts ks t Hlen Ht) as [k Hk].
        assert (existsb (fun y => y <=? x) l = true); [|congruence]. apply existsb_exists. exists (n_deadline t). split; [|apply Z.leb_le; assumption].
        apply sort_times_in, points_in. exists t, k, 0%nat. split; [assumption|]. split; [lia|]. cbn. lia.
Qed.

(** ** What a first deadline miss implies for the demand *)
Section Miss.
  Variables (m : nat) (ts : ntaskset) (s : jobseq) (sc : gschedule).
  Let es := map en ts.
  Hypothesis Hok : Forall nb_ok ts.
  Hypothesis Hl : legal_edf es s.
  Hypothesis Hv : gvalid (length es) m s sc.
  Hypothesis Hp : gedf es m s sc.
  Variable d : nat.
  Hypothesis IHd : forall i h d', (i < length es)%nat -> (d' < d)%nat -> Z.of_nat d' = due es s (i, h) -> gcompleted s sc (i, h) d'.
  Variables k q : nat.
  Hypothesis Hk : (k < length es)%nat.
  Hypothesis Hdue : due es s (k, q) = Z.of_nat d.
  Hypothesis Hmiss : gservice sc (k, q) d < Z.of_nat (cst s k q).

  Lemma ok_nth : forall i, (i < length es)%nat -> nb_ok (nth i ts dnt).
  Proof. intros i Hi. unfold es in Hi. rewrite map_length in Hi. rewrite Forall_forall in Hok. apply Hok, nth_In. assumption. Qed.
  Lemma wf_es : Forall wf_etask es.
  Proof. unfold es. rewrite Forall_map. eapply Forall_impl; [|exact Hok]. intros t [A [B C]]. unfold wf_etask, en. cbn. lia. Qed.
  Lemma HD_es : forall i, (i < length es)%nat -> 1 <= e_deadline (et es i) <= e_period (et es i).
  Proof. intros i Hi. destruct (ok_nth i Hi) as [A [B C]]. unfold es. rewrite et_en. cbn. lia. Qed.

  Lemma total_sumf : forall x, total_demand ts x = sumf (fun i => bound_demand (nth i ts dnt) x) (length es).
  Proof.
    intros x. unfold total_demand, es. rewrite map_length, sumf_seq. f_equal.
    assert (G : forall (l : ntaskset), map (fun t => bound_demand t x) l = map (fun i => bound_demand (nth i l dnt) x) (seq 0 (length l))); [|apply G].
    induction l as [|t l IH]; [reflexivity|]. cbn [length seq map nth]. f_equal. rewrite <- seq_shift, map_map. exact IH.
  Qed.

  Lemma miss_demand : forall pp qq an ad, (2 <= m)%nat -> 0 < qq -> 0 <= pp <= qq -> 0 < ad -> 0 <= an -> an * qq <= pp * ad ->
    (forall t, In t ts -> n_wcet t * ad <= an * n_deadline t) ->
    exists L c, 0 < L /\ 0 <= c /\ qq * c < Z.of_nat m * qq - (Z.of_nat m - 1) * pp /\
      ad * ((Z.of_nat m * qq - (Z.of_nat m - 1) * pp) * L) < qq * (ad * total_demand ts L + c * (an * L)).
  Proof.
    intros pp qq an ad Hm2 Hqq Hpp Had Han Hle Hden.
    assert (Hdens : e_cost (et es k) * qq <= pp * e_deadline (et es k)).
    { unfold es. rewrite et_en. cbn [en e_cost e_deadline]. unfold es in Hk. rewrite map_length in Hk.
      specialize (Hden (nth k ts dnt) (nth_In _ _ Hk)). destruct (ok_nth k ltac:(unfold es; rewrite map_length; assumption)) as [A [B C]].
      set (cc := n_wcet (nth k ts dnt)) in *. set (D := n_deadline (nth k ts dnt)) in *.
      apply (Z.mul_le_mono_pos_l _ _ ad); [lia|]. assert (cc * ad * qq <= an * D * qq) by (apply Z.mul_le_mono_nonneg_r; lia).
      assert (an * qq * D <= pp * ad * D) by (apply Z.mul_le_mono_nonneg_r; lia). nia. }
    assert (Hm1 : (1 <= m)%nat) by lia.
    assert (Hd0 : (arr s k q < d)%nat).
    { pose proof (miss_arr es s d k q Hdue) as E. pose proof (HD_es k Hk). lia. }
    pose proof (overloaded_arrival es m s sc wf_es Hl Hv Hp Hm1 HD_es d IHd k q Hk Hdue Hmiss pp qq Hqq Hpp Hdens Hm2) as O0.
    destruct (extend_least es m s sc wf_es Hl Hv Hp Hm1 HD_es d IHd k q Hk Hdue pp qq Hqq Hpp Hm2 _ Hd0 O0) as [t [Ht [Ho [Hmin Hb]]]]. cbv beta zeta in Hb.
    assert (Htd : (t < d)%nat) by lia.
    pose proof (carry_count es m s sc wf_es Hl Hv Hp Hm1 HD_es d IHd k q Hk pp qq Hqq Hpp Hm2 t Htd Ho Hmin) as CC.
    set (L := Z.of_nat d - Z.of_nat t). set (c := sumf (fun i => b2z (carries es s sc d t i)) (length es)) in *.
    exists L, c. split; [unfold L; lia|]. split; [apply sumf_nonneg; intros; apply b2z_range|]. split; [exact CC|].
    unfold overloaded in Ho. apply Z.ltb_lt in Ho. fold L in Ho. set (mu := Z.of_nat m * qq - (Z.of_nat m - 1) * pp) in *.
    enough (W : ad * (Sall es s sc d d - Sall es s sc d t) <= ad * total_demand ts L + c * (an * L)).
    { assert (ad * (mu * L) < ad * (qq * (Sall es s sc d d - Sall es s sc d t))) by (apply Z.mul_lt_mono_pos_l; lia).
      assert (qq * (ad * (Sall es s sc d d - Sall es s sc d t)) <= qq * (ad * total_demand ts L + c * (an * L))) by (apply Z.mul_le_mono_nonneg_l; lia). lia. }
    rewrite !Sall_task, <- sumf_sub, total_sumf. unfold c. rewrite <- !sumf_mul. rewrite Z.mul_comm, <- sumf_mul, <- sumf_add. apply sumf_le. intros i Hi.
    destruct (Hb i Hi) as [N [phi [N0 [P0 [Hc [W1 W2]]]]]]. destruct (ok_nth i Hi) as [T1 [T2 T3]].
    assert (Hi' : (i < length ts)%nat) by (unfold es in Hi; rewrite map_length in Hi; assumption).
    specialize (Hden (nth i ts dnt) (nth_In _ _ Hi')).
    assert (Eet : et es i = en (nth i ts dnt)) by (unfold es; apply et_en). rewrite Eet in W1, W2. cbn [en e_cost e_deadline e_period] in W1, W2.
    pose proof (bd_ge (nth i ts dnt) L) as BG. specialize (ok_nth i Hi). intros Oki.
    set (S := Stask es s sc d i d - Stask es s sc d i t) in *. set (C := n_wcet (nth i ts dnt)) in *. set (D := n_deadline (nth i ts dnt)) in *. set (T := n_period (nth i ts dnt)) in *.
    set (B := bound_demand (nth i ts dnt) L) in *. fold L in W2.
    pose proof (b2z_range (carries es s sc d t i)) as Br. assert (L0 : 0 < L) by (unfold L; lia).
    assert (CZ : 0 <= an * L * b2z (carries es s sc d t i)) by (apply Z.mul_nonneg_nonneg; [apply Z.mul_nonneg_nonneg; lia|lia]).
    assert (B0 : 0 <= B) by (apply bd_nonneg; assumption).
    destruct W2 as [-> |[W2 [W3 [W4 W5]]]]; [nia|].
    destruct (Z.eq_dec phi 0) as [Z0|Z0].
    - subst phi. specialize (BG N Oki N0 ltac:(lia)). nia.
    - destruct Hc as [|Hc]; [contradiction|]. rewrite Hc in *. cbn [b2z] in *. rewrite Z.mul_1_r.
      destruct (Z.eq_dec N 0) as [-> |N1]; [nia|].
      specialize (BG (N - 1) Oki ltac:(lia) ltac:(nia)).
      assert (X1 : ad * (qq * S) <= ad * (qq * (N * C) - pp * phi)) by (apply Z.mul_le_mono_nonneg_l; lia).
      assert (X2 : an * qq * phi <= pp * ad * phi) by (apply Z.mul_le_mono_nonneg_r; lia).
      assert (X3 : qq * (ad * S) <= qq * (ad * (N * C) - an * phi)) by nia.
      apply Z.mul_le_mono_pos_l in X3; [|lia].
      assert (X4 : D - phi <= L) by nia. assert (X5 : an * (D - phi) <= an * L) by (apply Z.mul_le_mono_nonneg_l; lia).
      assert (X6 : ad * ((N - 1) * C) <= ad * B) by (apply Z.mul_le_mono_nonneg_l; lia). nia.
  Qed.

  (** *** One processor *)
  Lemma window_demand : forall i t a, (i < length es)%nat -> (t <= d)%nat -> (forall h, 0 <= a h <= n_wcet (nth i ts dnt)) ->
    (forall h, a h <> 0 -> inI es s d i h = true /\ (t <= arr s i h)%nat) -> sumf a (S d) <= bound_demand (nth i ts dnt) (Z.of_nat d - Z.of_nat t).
  Proof.
    intros i t a Hi Ht Ha Hin. pose proof (ok_nth i Hi) as Oki. pose proof Oki as [T1 [T2 T3]].
    destruct (existsb (fun h => negb (a h =? 0)) (seq 0 (S d))) eqn:Ex.
    - apply existsb_exists in Ex. destruct Ex as [hx [Hx Px]]. apply in_seq in Hx.
      destruct (least_nat (fun h => negb (a h =? 0)) hx Px) as [h0 [L0 [P0 M0]]].
      destruct (last_nat (fun h => negb (a h =? 0)) d hx ltac:(lia) Px) as [h1 [L1 [P1 M1]]].
      assert (L01 : (h0 <= h1)%nat).
      { destruct (Nat.le_gt_cases h0 h1); [assumption|]. specialize (M0 h1 ltac:(lia)). congruence. }
      apply negb_true_iff, Z.eqb_neq in P0. apply negb_true_iff, Z.eqb_neq in P1.
      assert (RS : sumf a (S d) <= a h0 + Z.of_nat (h1 - h0) * n_wcet (nth i ts dnt)).
      { apply range_sum; [assumption|lia|assumption|]. intros h Hh Nh. split.
        - destruct (Nat.le_gt_cases h0 h); [assumption|]. specialize (M0 h ltac:(lia)). apply negb_false_iff, Z.eqb_eq in M0. contradiction.
        - destruct (Nat.le_gt_cases h h1); [assumption|]. specialize (M1 h ltac:(lia)). apply negb_false_iff, Z.eqb_eq in M1. contradiction. }
      assert (Sep : Z.of_nat (arr s i h0) + Z.of_nat (h1 - h0) * n_period (nth i ts dnt) <= Z.of_nat (arr s i h1)).
      { replace h1 with (h0 + (h1 - h0))%nat at 2 by lia. generalize (h1 - h0)%nat as x. induction x; [rewrite Nat.add_0_r; lia|].
        rewrite Nat.add_succ_r. pose proof (sep es s wf_es Hl i (h0 + x) Hi) as Sx. unfold es in Sx at 1. rewrite et_en in Sx. cbn [en e_period] in Sx. lia. }
      destruct (Hin h0 P0) as [_ A0]. destruct (Hin h1 P1) as [I1 _]. unfold inI, due in I1. apply Z.leb_le in I1. cbn [fst snd] in I1. fold (et es i) in I1.
      unfold es in I1. rewrite et_en in I1. cbn [en e_deadline] in I1.
      pose proof (bd_ge (nth i ts dnt) (Z.of_nat d - Z.of_nat t) (Z.of_nat (h1 - h0) + 1) Oki ltac:(lia) ltac:(lia)) as B. specialize (Ha h0). lia.
    - rewrite (sumf_zero a); [apply bd_nonneg; assumption|]. intros h Hh. destruct (Z.eq_dec (a h) 0) as [e|e]; [assumption|exfalso].
      assert (X : existsb (fun h => negb (a h =? 0)) (seq 0 (S d)) = true); [|congruence].
      apply existsb_exists. exists h. split; [apply in_seq; lia|]. apply negb_true_iff, Z.eqb_neq. assumption.
  Qed.

  Lemma miss_demand_uni : m = 1%nat -> exists L, 0 < L /\ L < total_demand ts L.
  Proof.
    intros Em. assert (Hm1 : (1 <= m)%nat) by lia. pose proof (miss_arr es s d k q Hdue) as Ed. pose proof (HD_es k Hk) as Hdk.
    set (w := fun u => sumI es s d (fun i h => b2z (gruns sc (i, h) u))).
    assert (Wready : forall u i h, (i < length es)%nat -> inI es s d i h = true -> (arr s i h <= u)%nat -> gservice sc (i, h) u < Z.of_nat (cst s i h) -> 1 <= w u).
    { intros u i h Hi Hin Ha Hinc. destruct (gruns sc (i, h) u) eqn:R; [apply (slot_one es m s sc wf_es Hl Hm1 HD_es d u i h); assumption|].
      assert (Hnr : ~ In (i, h) (sc u)) by (rewrite <- gruns_iff; congruence).
      assert (Hrd : gready s sc (i, h) u) by (apply (runs_ready_I es m s sc wf_es Hl Hm1 HD_es d IHd); assumption).
      destruct (Hp u (i, h) Hi Hrd Hnr) as [B1 B2]. pose proof (slot_work es m s sc wf_es Hl Hv Hm1 HD_es d u) as SW. rewrite B1 in SW. fold (w u) in SW.
      assert (Hall : forall j, In j (sc u) -> due es s j <= Z.of_nat d).
      { intros j Hj. specialize (B2 j Hj). unfold inI in Hin. apply Z.leb_le in Hin. lia. }
      specialize (SW Hall). lia. }
    set (busy := fun t => forallb (fun u => 1 <=? w u) (seq t (d - t))).
    assert (B0 : busy (arr s k q) = true).
    { apply forallb_forall. intros u Hu. apply in_seq in Hu. apply Z.leb_le. apply (Wready u k q Hk); [unfold inI; rewrite Hdue; apply Z.leb_refl|lia|].
      pose proof (gservice_mono sc (k, q) u d ltac:(lia)). lia. }
    destruct (least_nat busy _ B0) as [t [Ht [Bt Hmin]]].
    assert (Hw : Z.of_nat d - Z.of_nat t <= Sall es s sc d d - Sall es s sc d t).
    { assert (G : forall x, (t + x <= d)%nat -> Z.of_nat x <= Sall es s sc d (t + x) - Sall es s sc d t).
      { induction x as [|x IHx]; intros Hx; [rewrite Nat.add_0_r; lia|]. specialize (IHx ltac:(lia)). rewrite Nat.add_succ_r.
        rewrite (Sall_step es m s sc Hm1 d). fold (w (t + x)%nat).
        unfold busy in Bt. rewrite forallb_forall in Bt. specialize (Bt (t + x)%nat ltac:(apply in_seq; lia)). apply Z.leb_le in Bt. lia. }
      specialize (G (d - t)%nat ltac:(lia)). replace (t + (d - t))%nat with d in G by lia. lia. }
    assert (Hfresh : forall i h, (i < length es)%nat -> jwork es s sc d t i h <> 0 -> inI es s d i h = true /\ (t <= arr s i h)%nat).
    { intros i h Hi Hj. unfold jwork in Hj. destruct (inI es s d i h) eqn:Hin; [|contradiction]. split; [reflexivity|].
      destruct (Nat.le_gt_cases t (arr s i h)) as [|Lt]; [assumption|exfalso]. destruct t as [|u]; [lia|].
      specialize (Hmin u ltac:(lia)). assert (busy u = true); [|congruence]. unfold busy in *. replace (d - u)%nat with (S (d - S u)) by lia. cbn [seq forallb].
      rewrite Bt, andb_true_r. apply Z.leb_le. apply (Wready u i h Hi Hin ltac:(lia)).
      pose proof (gservice_mono sc (i, h) u (S u) ltac:(lia)). pose proof (gservice_mono sc (i, h) (S u) d ltac:(lia)).
      pose proof (gservice_le_cost (length es) m s sc Hv (i, h) d) as Z1. cbn [fst snd] in Z1. lia. }
    exists (Z.of_nat d - Z.of_nat t). split; [lia|]. rewrite !Sall_task, <- sumf_sub in Hw. rewrite total_sumf.
    enough (X : sumf (fun i => Stask es s sc d i d - Stask es s sc d i t + b2z (Nat.eqb i k)) (length es) <= sumf (fun i => bound_demand (nth i ts dnt) (Z.of_nat d - Z.of_nat t)) (length es)).
    { rewrite sumf_add in X. pose proof (sumf_term_le (fun i => b2z (Nat.eqb i k)) (length es) k Hk ltac:(intros; apply b2z_range)) as Y. cbv beta in Y. rewrite Nat.eqb_refl in Y. cbn [b2z] in Y. lia. }
    apply sumf_le. intros i Hi. rewrite (Stask_jwork es s sc d).
    assert (Eet : et es i = en (nth i ts dnt)) by (unfold es; apply et_en).
    assert (Hj : forall h, 0 <= jwork es s sc d t i h <= n_wcet (nth i ts dnt)).
    { intros h. pose proof (jwork_range es m s sc wf_es Hl Hv Hm1 d t i h ltac:(lia) Hi) as R. cbv beta in R. rewrite Eet in R. exact R. }
    destruct (Nat.eqb_spec i k) as [-> |Nk]; cbn [b2z].
    - assert (Iq : inI es s d k q = true) by (unfold inI; rewrite Hdue; apply Z.leb_refl).
      assert (Hq : (q < S d)%nat) by (apply (inI_idx es m s wf_es Hl Hm1 HD_es d k q Hk Iq)).
      set (a := fun h => jwork es s sc d t k h + b2z (Nat.eqb h q)).
      assert (Es : sumf a (S d) = sumf (fun h => jwork es s sc d t k h) (S d) + 1).
      { unfold a. rewrite sumf_add. f_equal. rewrite (sumf_single (fun h => b2z (Nat.eqb h q)) (S d) q Hq); [rewrite Nat.eqb_refl; reflexivity|].
        intros h _ Nh. apply Nat.eqb_neq in Nh. rewrite Nh. reflexivity. }
      rewrite <- Es. apply (window_demand k t a Hk ltac:(lia)).
      + intros h. unfold a. specialize (Hj h). destruct (Nat.eqb_spec h q) as [-> |]; cbn [b2z]; [|lia].
        unfold jwork in *. rewrite Iq in *. pose proof (gservice_nonneg sc (k, q) t). pose proof (cst_le es s wf_es Hl k q Hk) as Hc. rewrite Eet in Hc. cbn [en e_cost] in Hc. lia.
      + intros h Nh. unfold a in Nh. destruct (Nat.eq_dec h q) as [Eh|Eh]; [subst h; split; [assumption|lia]|]. rewrite (proj2 (Nat.eqb_neq _ _) Eh) in Nh. cbn [b2z] in Nh. apply Hfresh; [assumption|lia].
    - rewrite Z.add_0_r. apply window_demand; [assumption|lia|assumption|]. intros h. apply Hfresh. assumption.
  Qed.
End Miss.

(** ** The test *)
Lemma q_range : forall y, (0 <= y)%Q -> (y <= 1)%Q -> 0 <= Qnum y <= Zpos (Qden y).
Proof. intros [a b] H1 H2. unfold Qle in *. cbn in *. lia. Qed.

Lemma cdiv_ceiling : forall x, cdiv (Qnum x) (Zpos (Qden x)) = Qceiling x.
Proof. intros [n p]. unfold cdiv, Qceiling, Qfloor. cbn. reflexivity. Qed.

Lemma max_density_range : forall ts, Forall nb_ok ts -> (0 <= ns_max_density ts)%Q /\ (ns_max_density ts <= 1)%Q /\
  forall t, In t ts -> (inject_Z (n_wcet t) <= ns_max_density ts * inject_Z (n_deadline t))%Q.
Proof.
  intros ts Hok. unfold ns_max_density. destruct (qmax_fold ts 0) as [A [B C]]. set (x := fold_left (fun m t => qmax m (n_density t)) ts 0%Q) in *. rewrite Forall_forall in Hok.
  split; [exact A|]. split.
  - destruct C as [-> |[t [Ht ->]]]; [lra|]. destruct (Hok t Ht) as [T1 [T2 T3]]. unfold n_density, frac. apply Qle_shift_div_r; [apply zq_pos; lia|]. rewrite Qmult_1_l, <- Zle_Qle. lia.
  - intros t Ht. specialize (B t Ht). destruct (Hok t Ht) as [T1 [T2 T3]]. assert (P : (0 < inject_Z (n_deadline t))%Q) by (apply zq_pos; lia).
    pose proof (Qmult_le_compat_r _ _ (inject_Z (n_deadline t)) B ltac:(lra)) as X. unfold n_density, frac in X.
    setoid_replace (inject_Z (n_wcet t) / inject_Z (n_deadline t) * inject_Z (n_deadline t))%Q with (inject_Z (n_wcet t)) in X by (field; lra). exact X.
Qed.

(** a bound on the load for every rate x *)
Definition rate_ok (ts : ntaskset) (load x : Q) : Prop := (load <= x - (inject_Z (Qceiling x) - 1) * ns_max_density ts)%Q.

Lemma rate_sound : forall (m : nat) ts load x, Forall nb_ok ts -> (2 <= m)%nat -> (forall L, 0 < L -> (inject_Z (total_demand ts L) <= load * inject_Z L)%Q) ->
  (1 <= x)%Q -> (x <= inject_Z (Z.of_nat m) - (inject_Z (Z.of_nat m) - 1) * ns_max_density ts)%Q -> rate_ok ts load x -> gedf_schedulable (map en ts) m.
Proof.
  intros m ts load x Hok Hm Hload H1 Hmu Hr. destruct (max_density_range ts Hok) as [D0 [D1 Hden]]. set (del := ns_max_density ts) in *.
  assert (Ee : map en ts = map e_of (map back ts)) by (rewrite map_map; reflexivity).
  assert (Hw : Forall wf_task (map back ts)) by (rewrite Forall_map; eapply Forall_impl; [|exact Hok]; intros t [? [? ?]]; unfold wf_task; cbn; lia).
  rewrite Ee. apply no_first_miss; [exact Hw|]. rewrite <- Ee. intros s sc Hl Hv Hp d IH k q Hk Hdue Hmiss.
  set (M := inject_Z (Z.of_nat m)) in *. assert (M2 : (2 <= M)%Q) by (unfold M; change 2%Q with (inject_Z 2); rewrite <- Zle_Qle; lia).
  set (sg := ((M - x) / (M - 1))%Q).
  assert (Sg : (sg * (M - 1) == M - x)%Q) by (unfold sg; field; lra).
  assert (S0 : (del <= sg)%Q) by (unfold sg; apply Qle_shift_div_l; lra).
  assert (S1 : (sg <= 1)%Q) by (unfold sg; apply Qle_shift_div_r; lra).
  destruct (miss_demand m ts s sc Hok Hl Hv Hp d IH k q Hk Hdue Hmiss (Qnum sg) (Zpos (Qden sg)) (Qnum del) (Zpos (Qden del))) as [L [c [L0 [C0 [CC X]]]]];
    [assumption|lia| |lia| | | |].
  - assert (S00 : (0 <= sg)%Q) by lra. apply q_range; assumption.
  - apply q_range; assumption.
  - unfold Qle in S0. lia.
  - intros t Ht. specialize (Hden t Ht). unfold Qle in Hden. cbn in Hden. rewrite ?Pos.mul_1_r in Hden. lia.
  - set (r := (Z.of_nat m * Zpos (Qden sg) - (Z.of_nat m - 1) * Qnum sg)) in *.
    assert (Eq : forall y : Q, (inject_Z (Qnum y) == y * inject_Z (Zpos (Qden y)))%Q) by (intros [a b]; unfold Qeq, inject_Z; cbn; lia).
    assert (Qp : (0 < inject_Z (Zpos (Qden sg)))%Q) by (apply zq_pos; lia).
    assert (Qd : (0 < inject_Z (Zpos (Qden del)))%Q) by (apply zq_pos; lia).
    assert (Er : (inject_Z r == x * inject_Z (Zpos (Qden sg)))%Q).
    { unfold r. rewrite inject_sub, !inject_Z_mult, inject_sub, (Eq sg). fold M. change (inject_Z 1) with 1%Q. nra. }
    assert (Cx : (inject_Z c < x)%Q).
    { rewrite Zlt_Qlt, inject_Z_mult, Er in CC. rewrite Qmult_comm in CC. apply Qmult_lt_r in CC; assumption. }
    assert (Cc : c <= Qceiling x - 1).
    { pose proof (Qle_ceiling x) as Y. assert (Z : (inject_Z c < inject_Z (Qceiling x))%Q) by lra. rewrite <- Zlt_Qlt in Z. lia. }
    rewrite Zlt_Qlt in X. rewrite !inject_Z_mult, inject_Z_plus, !inject_Z_mult, Er, (Eq del) in X.
    specialize (Hload L L0). assert (Lq : (0 < inject_Z L)%Q) by (apply zq_pos; lia).
    assert (X' : (x * inject_Z L < inject_Z (total_demand ts L) + inject_Z c * (del * inject_Z L))%Q).
    { apply (Qmult_lt_l _ _ (inject_Z (Zpos (Qden del)) * inject_Z (Zpos (Qden sg)))); [nra|]. nra. }
    assert (X2 : (x * inject_Z L < (load + inject_Z c * del) * inject_Z L)%Q) by nra. apply Qmult_lt_r in X2; [|assumption].
    unfold rate_ok in Hr. fold del in Hr. rewrite Zle_Qle, inject_sub in Cc. change (inject_Z 1) with 1%Q in Cc.
    pose proof (Qmult_le_compat_r _ _ del Cc D0). lra.
Qed.

Lemma uni_sound : forall ts load, Forall nb_ok ts -> (forall L, 0 < L -> (inject_Z (total_demand ts L) <= load * inject_Z L)%Q) -> (load <= 1)%Q -> gedf_schedulable (map en ts) 1.
Proof.
  intros ts load Hok Hload H1.
  assert (Ee : map en ts = map e_of (map back ts)) by (rewrite map_map; reflexivity).
  assert (Hw : Forall wf_task (map back ts)) by (rewrite Forall_map; eapply Forall_impl; [|exact Hok]; intros t [? [? ?]]; unfold wf_task; cbn; lia).
  rewrite Ee. apply no_first_miss; [exact Hw|]. rewrite <- Ee. intros s sc Hl Hv Hp d IH k q Hk Hdue Hmiss.
  destruct (miss_demand_uni 1 ts s sc Hok Hl Hv Hp d IH k q Hk Hdue Hmiss eq_refl) as [L [L0 X]].
  specialize (Hload L L0). rewrite Zlt_Qlt in X. pose proof (Qmult_le_compat_r _ _ (inject_Z L) H1 ltac:(apply zq_nonneg; lia)). lra.
Qed.

Lemma load_sound : forall (m : nat) ts load, Forall nb_ok ts -> (1 <= m)%nat -> (forall L, 0 < L -> (inject_Z (total_demand ts L) <= load * inject_Z L)%Q) ->
  (load <= load_bound (Z.of_nat m) (ns_max_density ts))%Q -> gedf_schedulable (map en ts) m.
Proof.
  intros m ts load Hok Hm Hload Hb. destruct (max_density_range ts Hok) as [D0 [D1 _]]. unfold load_bound in Hb. set (del := ns_max_density ts) in *.
  rewrite cdiv_ceiling in Hb. set (M := inject_Z (Z.of_nat m)) in *. set (mu := (M - (M - 1) * del)%Q) in *.
  assert (Hmax : (load <= mu - (inject_Z (Qceiling mu) - 1) * del)%Q \/ (load <= (inject_Z (Qceiling mu) - 1) - (inject_Z (Qceiling mu) - 2) * del)%Q).
  { unfold qmax in Hb. destruct (negb _) in Hb; auto. }
  destruct (Nat.eq_dec m 1) as [E1|E1].
  - subst m. assert (Em : (mu == 1)%Q) by (unfold mu, M; change (inject_Z (Z.of_nat 1)) with 1%Q; lra).
    assert (Ec : Qceiling mu = 1) by (rewrite (Qceiling_comp _ _ Em); reflexivity). rewrite Ec in Hmax.
    apply (uni_sound ts load Hok Hload). change (inject_Z 1) with 1%Q in Hmax. destruct Hmax; lra.
  - assert (M2 : (2 <= M)%Q) by (unfold M; change 2%Q with (inject_Z 2); rewrite <- Zle_Qle; lia).
    assert (Mu1 : (1 <= mu)%Q) by (unfold mu; nra).
    assert (Rmu : rate_ok ts load mu -> gedf_schedulable (map en ts) m) by (apply rate_sound; try assumption; [lia|unfold mu, M, del; lra]).
    destruct Hmax as [H|H]; [apply Rmu; exact H|].
    destruct (Z.le_gt_cases (Qceiling mu) 1) as [C1|C1].
    + apply Rmu. unfold rate_ok. fold del. pose proof (Qle_ceiling mu) as Y. assert (Z1 : (inject_Z (Qceiling mu) <= 1)%Q) by (change 1%Q with (inject_Z 1); rewrite <- Zle_Qle; lia).
      assert (Ec : (inject_Z (Qceiling mu) == 1)%Q) by lra. rewrite Ec in H |- *. lra.
    + apply (rate_sound m ts load (inject_Z (Qceiling mu - 1)) Hok ltac:(lia) Hload).
      * change 1%Q with (inject_Z 1). rewrite <- Zle_Qle. lia.
      * pose proof (Qceiling_lt mu). fold del M mu. lra.
      * unfold rate_ok. fold del. rewrite Qceiling_Z, inject_sub. change (inject_Z 1) with 1%Q. lra.
Qed.

(** ** Accuracy: the computed load exceeds the true load by epsilon at most *)
Lemma bd_lower : forall t x, nb_ok t -> n_wcet t * (x - n_deadline t) <= bound_demand t x * n_period t.
Proof.
  intros t x [T1 [T2 T3]]. unfold bound_demand. destruct (Z.ltb_spec (x - n_deadline t) 0); [nia|].
  pose proof (Z.mul_succ_div_gt (x - n_deadline t) (n_period t) ltac:(lia)). nia.
Qed.

Lemma approx_close : forall t p k, nb_ok t -> 0 <= k -> approx_demand t p k <= bound_demand t p \/
  (approx_demand t p k <= bound_demand t p + n_wcet t /\ k * n_period t + n_deadline t <= p).
Proof.
  intros t p k Hok Hk. pose proof Hok as [T1 [T2 T3]]. unfold approx_demand. destruct (Z.ltb_spec p (k * n_period t + n_deadline t)) as [L|L]; [left; lia|right].
  split; [|assumption]. assert (Hd : n_deadline t <= p) by nia. unfold bound_demand. destruct (Z.ltb_spec (p - n_deadline t) 0); [lia|].
  pose proof (Z.mul_succ_div_gt (p - n_deadline t) (n_period t) ltac:(lia)) as J. set (j := (p - n_deadline t) / n_period t) in *.
  pose proof (cdiv_spec ((p - n_deadline t) * n_wcet t) (n_period t) ltac:(lia)) as [C1 _].
  set (a := cdiv ((p - n_deadline t) * n_wcet t) (n_period t)) in *.
  assert (a - 1 < (j + 1) * n_wcet t); [|lia]. apply (Z.mul_lt_mono_pos_l (n_period t)); [lia|]. nia.
Qed.

Lemma k_enough : forall ts eps t p, nb_ok t -> (0 < eps)%Q -> k_for_epsilon ts eps t * n_period t + n_deadline t <= p ->
  (inject_Z (Z.of_nat (length ts)) * inject_Z (n_wcet t) <= eps * inject_Z p)%Q.
Proof.
  intros ts eps t p [T1 [T2 T3]] He Hp. set (n := inject_Z (Z.of_nat (length ts))).
  assert (P : (0 < inject_Z (n_period t))%Q) by (apply zq_pos; lia).
  assert (K : (n_util t * n / eps - frac (n_deadline t) (n_period t) <= inject_Z (k_for_epsilon ts eps t))%Q).
  { unfold k_for_epsilon. fold n. set (y := (n_util t * n / eps - _)%Q). pose proof (Qle_ceiling y) as Y.
    assert (X : (inject_Z (Qceiling y) <= inject_Z (Z.max 0 (Qceiling y)))%Q) by (rewrite <- Zle_Qle; lia). lra. }
  rewrite Zle_Qle, inject_Z_plus, inject_Z_mult in Hp. set (k := inject_Z (k_for_epsilon ts eps t)) in *. unfold n_util, frac in K.
  pose proof (Qmult_le_compat_r _ _ (inject_Z (n_period t)) K ltac:(lra)) as K'.
  setoid_replace ((inject_Z (n_wcet t) / inject_Z (n_period t) * n / eps - inject_Z (n_deadline t) / inject_Z (n_period t)) * inject_Z (n_period t))%Q
    with (n * inject_Z (n_wcet t) / eps - inject_Z (n_deadline t))%Q in K' by (field; lra).
  assert (X : (n * inject_Z (n_wcet t) / eps <= inject_Z p)%Q) by lra.
  pose proof (Qmult_le_compat_r _ _ eps X ltac:(lra)) as X'. setoid_replace (n * inject_Z (n_wcet t) / eps * eps)%Q with (n * inject_Z (n_wcet t))%Q in X' by (field; lra). lra.
Qed.

Lemma lap_close : forall ts eps p, Forall nb_ok ts -> (0 < eps)%Q -> 0 < p ->
  (load_at_point ts (map (k_for_epsilon ts eps) ts) p * inject_Z p <= inject_Z (total_demand ts p) + eps * inject_Z p)%Q.
Proof.
  intros ts eps p Hok He Hp. rewrite lap_sum. destruct ts as [|t0 ts0]; [cbn; unfold total_demand; cbn; change (inject_Z 0) with 0%Q; pose proof (zq_pos p Hp); nra|].
  set (ts := t0 :: ts0) in *. set (n := inject_Z (Z.of_nat (length ts))). assert (N : (0 < n)%Q) by (apply zq_pos; cbn; lia).
  assert (P : (0 < inject_Z p)%Q) by (apply zq_pos; lia).
  assert (G : forall l, Forall nb_ok l -> (qsum (map (fun q => task_approx_load (fst q) p (snd q)) (combine l (map (k_for_epsilon ts eps) l))) * inject_Z p * n <=
     inject_Z (total_demand l p) * n + inject_Z (Z.of_nat (length l)) * (eps * inject_Z p))%Q).
  { intros l Hl. induction Hl as [|t l Ht Hl IH].
    - cbn. unfold total_demand. cbn. change (inject_Z 0) with 0%Q. lra.
    - cbn [map combine qsum fold_right fst snd length]. fold (qsum (map (fun q => task_approx_load (fst q) p (snd q)) (combine l (map (k_for_epsilon ts eps) l)))).
      unfold total_demand in *. cbn [map zsum fold_right]. fold (zsum (map (fun t => bound_demand t p) l)). rewrite inject_Z_plus.
      rewrite Nat2Z.inj_succ. replace (Z.succ (Z.of_nat (length l))) with (Z.of_nat (length l) + 1) by lia. rewrite inject_Z_plus. change (inject_Z 1) with 1%Q.
      enough (X : (task_approx_load t p (k_for_epsilon ts eps t) * inject_Z p * n <= inject_Z (bound_demand t p) * n + eps * inject_Z p)%Q) by lra.
      unfold task_approx_load. destruct (Z.ltb_spec 0 p); [|lia].
      setoid_replace (inject_Z (approx_demand t p (k_for_epsilon ts eps t)) / inject_Z p * inject_Z p)%Q with (inject_Z (approx_demand t p (k_for_epsilon ts eps t))) by (field; lra).
      assert (EP : (0 <= eps * inject_Z p)%Q) by nra.
      assert (K0 : 0 <= k_for_epsilon ts eps t) by (unfold k_for_epsilon; lia).
      destruct (approx_close t p (k_for_epsilon ts eps t) Ht K0) as [A|[A B]].
      + rewrite Zle_Qle in A. pose proof (Qmult_le_compat_r _ _ n A ltac:(lra)). lra.
      + apply (k_enough ts eps t p Ht He) in B. fold n in B. rewrite Zle_Qle, inject_Z_plus in A. pose proof (Qmult_le_compat_r _ _ n A ltac:(lra)) as A'. lra. }
  specialize (G ts Hok). fold n in G. apply (Qmult_le_r _ _ n N). lra.
Qed.

Lemma util_below : forall ts r, Forall nb_ok ts -> (forall x, 0 < x -> (inject_Z (total_demand ts x) <= r * inject_Z x)%Q) -> (ns_util ts <= r)%Q.
Proof.
  intros ts r Hok H. destruct (Qlt_le_dec r (ns_util ts)) as [L|L]; [exfalso|assumption].
  assert (E : (ns_util ts == qsum (map n_util ts))%Q) by (unfold ns_util; rewrite fold_qsum; ring).
  assert (G : exists K, (0 <= K)%Q /\ forall x, 0 < x -> (qsum (map n_util ts) * inject_Z x <= inject_Z (total_demand ts x) + K)%Q).
  { clear H L E. unfold total_demand. induction Hok as [|t ts Ht Hok [K [K0 IH]]].
    - exists 0%Q. split; [lra|]. intros x Hx. cbn. change (inject_Z 0) with 0%Q. lra.
    - exists (inject_Z (n_wcet t * n_deadline t) / inject_Z (n_period t) + K)%Q. pose proof Ht as [T1 [T2 T3]].
      assert (P : (0 < inject_Z (n_period t))%Q) by (apply zq_pos; lia).
      split.
      + assert (0 <= inject_Z (n_wcet t * n_deadline t) / inject_Z (n_period t))%Q by (apply div_nonneg; [apply zq_nonneg; nia|assumption]). lra.
      + intros x Hx. specialize (IH x Hx). cbn [map qsum zsum fold_right]. fold (qsum (map n_util ts)) (zsum (map (fun t => bound_demand t x) ts)). rewrite inject_Z_plus.
        pose proof (bd_lower t x Ht) as B. rewrite Z.mul_sub_distr_l, Zle_Qle, inject_sub, !inject_Z_mult in B.
        enough (X : (n_util t * inject_Z x <= inject_Z (bound_demand t x) + inject_Z (n_wcet t * n_deadline t) / inject_Z (n_period t))%Q) by lra.
        apply (Qmult_le_r _ _ (inject_Z (n_period t)) P). unfold n_util, frac. rewrite inject_Z_mult.
        setoid_replace (inject_Z (n_wcet t) / inject_Z (n_period t) * inject_Z x * inject_Z (n_period t))%Q with (inject_Z (n_wcet t) * inject_Z x)%Q by (field; lra).
        setoid_replace ((inject_Z (bound_demand t x) + inject_Z (n_wcet t) * inject_Z (n_deadline t) / inject_Z (n_period t)) * inject_Z (n_period t))%Q
          with (inject_Z (bound_demand t x) * inject_Z (n_period t) + inject_Z (n_wcet t) * inject_Z (n_deadline t))%Q by (field; lra). lra. }
  destruct G as [K [K0 G]]. set (g := (ns_util ts - r)%Q) in *. assert (G0 : (0 < g)%Q) by (unfold g; lra).
  set (x := Qfloor (K / g) + 1). assert (X0 : 0 < x).
  { unfold x. assert (0 <= K / g)%Q by (apply div_nonneg; assumption). assert (0 <= Qfloor (K / g)) by (change 0 with (Qfloor 0); apply Qfloor_resp_le; assumption). lia. }
  specialize (G x X0). rewrite <- E in G. specialize (H x X0). pose proof (Qlt_floor (K / g)) as F. fold x in F.
  pose proof (Qmult_lt_r (K / g) (inject_Z x) g G0) as M. apply M in F. setoid_replace (K / g * g)%Q with K in F by (field; lra).
  assert (E' : (g * inject_Z x == ns_util ts * inject_Z x - r * inject_Z x)%Q) by (unfold g; ring). lra.
Qed.

Lemma scan_range : forall ts ks den R times last load, (load <= R)%Q -> (forall x, In x times -> (load_at_point ts ks x <= R)%Q) ->
  (load_scan ts ks den times last load <= R)%Q.
Proof.
  intros ts ks den R times. induction times as [|t r IH]; intros last load Hl H; cbn [load_scan]; [assumption|].
  assert (Ht := H t (or_introl eq_refl)). assert (Hr : forall x, In x r -> (load_at_point ts ks x <= R)%Q) by (intros; apply H; right; assumption).
  destruct (last <? t); [|apply IH; assumption]. destruct (Qle_bool (load_at_point ts ks t) den) eqn:E; cbn [negb].
  - apply IH; [|assumption]. destruct (negb _); assumption.
  - apply Qle_bool_false in E. lra.
Qed.

Lemma approx_load_accurate : forall ts eps r, Forall nb_ok ts -> (0 < eps)%Q -> (forall x, 0 < x -> (inject_Z (total_demand ts x) <= r * inject_Z x)%Q) ->
  (approx_load ts eps <= r + eps)%Q.
Proof.
  intros ts eps r Hok He H. pose proof (util_below ts r Hok H) as U. unfold approx_load, approx_load_k.
  destruct (Qle_bool (ns_density ts) (ns_util ts)); cbn [negb]; [lra|]. apply scan_range; [lra|]. intros x Hx.
  assert (X0 : 0 < x).
  { apply (proj1 (sort_times_in _ _)) in Hx. change (In x (points ts (map (k_for_epsilon ts eps) ts))) in Hx. apply points_in in Hx. destruct Hx as [t [k [j [Hp [_ ->]]]]].
    apply in_combine_l in Hp. rewrite Forall_forall in Hok. destruct (Hok t Hp) as [? [? ?]]. nia. }
  pose proof (lap_close ts eps x Hok He X0) as A. specialize (H x X0). assert (P : (0 < inject_Z x)%Q) by (apply zq_pos; assumption).
  apply (Qmult_le_r _ _ (inject_Z x) P). lra.
Qed.
