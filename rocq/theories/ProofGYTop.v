(** Response-time analysis for uniprocessor EDF: the two functions as a whole. *)
From Coq Require Import ZArith QArith Qround List Bool Lia Lqa Arith Sorted Permutation.
From Verif Require Import Base ModelTasks SpecUni SpecQPA ProofUni ProofEDF ProofTasks ProofPfair ModelGY ProofGY.
Import ListNotations.
Open Scope Z_scope.

(** * The busy period *)

Lemma ts_rbf_mono ts x y : Forall pos_task ts -> x <= y -> ts_rbf ts x <= ts_rbf ts y.
Proof. intros P L. unfold ts_rbf. apply zsum_map_le. intros t Ht. rewrite Forall_forall in P. destruct (P t Ht) as [? [? ?]]. apply rbf_mono; lia. Qed.

Lemma ts_dbf_mono ts x y : Forall pos_task ts -> x <= y -> ts_dbf ts x <= ts_dbf ts y.
Proof. intros P L. unfold ts_dbf. apply zsum_map_le. intros t Ht. rewrite Forall_forall in P. destruct (P t Ht) as [? [? ?]]. apply dbf_mono; lia. Qed.

Lemma find_L_prime_least ts : Forall pos_task ts -> forall fuel l L, 0 <= l -> (forall x, 0 <= x -> ts_rbf ts x <= x -> l <= x) -> find_L_prime fuel ts l = Some L ->
  0 <= L /\ ts_rbf ts L <= L /\ forall x, 0 <= x -> ts_rbf ts x <= x -> L <= x.
Proof.
  intros P. induction fuel as [|fuel IH]; intros l L H0 HM H; [discriminate|]. cbn [find_L_prime] in H. cbv zeta in H. destruct (Z.leb_spec (ts_rbf ts l) l) as [A|A].
  - inversion H; subst. split; [exact H0|]. split; [exact A|exact HM].
  - apply IH in H; [exact H|lia|]. intros x X1 X2. pose proof (ts_rbf_mono ts l x P (HM x X1 X2)). lia.
Qed.

Lemma find_L_prime_total ts x : Forall pos_task ts -> 0 <= x -> ts_rbf ts x <= x -> forall fuel l, 0 <= l <= x -> (Z.to_nat (x - l) < fuel)%nat -> exists L, find_L_prime fuel ts l = Some L.
Proof.
  intros P X1 X2. induction fuel as [|fuel IH]; intros l H0 HF; [lia|]. cbn [find_L_prime]. cbv zeta. destruct (Z.leb_spec (ts_rbf ts l) l) as [A|A]; [eauto|].
  pose proof (ts_rbf_mono ts l x P ltac:(lia)). apply IH; lia.
Qed.

Lemma find_L_prime_none ts : (forall x, 0 <= x -> x < ts_rbf ts x) -> forall fuel l, 0 <= l -> find_L_prime fuel ts l = None.
Proof.
  intros H. induction fuel as [|fuel IH]; intros l L; [reflexivity|]. cbn [find_L_prime]. cbv zeta. pose proof (H l L). destruct (Z.leb_spec (ts_rbf ts l) l); [lia|]. apply IH. lia.
Qed.

Lemma rbf_bounds t x : pos_task t -> 0 <= x -> (inject_Z x * utilization t < inject_Z (rbf t x))%Q /\ (inject_Z (rbf t x) <= inject_Z x * utilization t + inject_Z (t_cost t))%Q.
Proof.
  intros [P [D C]] X. unfold rbf. destruct (Z.ltb_spec x 0); [lia|]. unfold utilization, zdivq. pose proof (div_spec x (t_period t) P) as [D1 D2].
  assert (PQ : (0 < inject_Z (t_period t))%Q) by (rewrite Zlt_Qlt in P; exact P).
  assert (E : (inject_Z x * (inject_Z (t_cost t) / inject_Z (t_period t)) == inject_Z (x * t_cost t) / inject_Z (t_period t))%Q) by (rewrite inject_Z_mult; field; intros Q0; rewrite Q0 in PQ; apply (Qlt_irrefl 0 PQ)).
  rewrite E. split.
  - apply Qlt_shift_div_r; [exact PQ|]. rewrite <- inject_Z_mult, <- Zlt_Qlt. nia.
  - assert (inject_Z (x / t_period t * t_cost t) <= inject_Z (x * t_cost t) / inject_Z (t_period t))%Q.
    { apply Qle_shift_div_l; [exact PQ|]. rewrite <- inject_Z_mult, <- Zle_Qle. nia. }
    replace ((x / t_period t + 1) * t_cost t) with (x / t_period t * t_cost t + t_cost t) by lia. rewrite inject_Z_plus. apply Qplus_le_compat; [assumption|apply Qle_refl].
Qed.

Lemma ts_rbf_bounds ts x : Forall pos_task ts -> 0 <= x -> (inject_Z (ts_rbf ts x) <= inject_Z x * ts_utilization ts None + inject_Z (zsum (map t_cost ts)))%Q /\
  (inject_Z x * ts_utilization ts None <= inject_Z (ts_rbf ts x))%Q /\ (ts <> [] -> inject_Z x * ts_utilization ts None < inject_Z (ts_rbf ts x))%Q.
Proof.
  intros P X. unfold ts_utilization, ts_rbf. induction P as [|t l Ht P IH]; cbn [map qsum fold_right zsum].
  - split; [|split]; [|rewrite Qmult_0_r; apply Qle_refl|congruence]. rewrite Qmult_0_r. apply Qle_refl.
  - fold (qsum (map utilization l)). destruct IH as [I1 [I2 _]]. destruct (rbf_bounds t x Ht X) as [B1 B2]. rewrite !inject_Z_plus, Qmult_plus_distr_r.
    set (a := (inject_Z x * utilization t)%Q) in *. set (b := (inject_Z x * qsum (map utilization l))%Q) in *. set (r := inject_Z (rbf t x)) in *. set (q := inject_Z (zsum (map (fun t => rbf t x) l))) in *. set (c := inject_Z (t_cost t)) in *. set (z := inject_Z (zsum (map t_cost l))) in *.
    split; [lra|]. split; [lra|]. intros _. lra.
Qed.

Lemma fixpoint_exists ts : Forall pos_task ts -> (ts_utilization ts None < 1)%Q -> exists x, 0 <= x /\ ts_rbf ts x <= x.
Proof.
  intros P U. set (u := ts_utilization ts None) in *. set (c := inject_Z (zsum (map t_cost ts))). exists (Z.max 0 (Qceiling (c / (1 - u)))). set (x := Z.max 0 (Qceiling (c / (1 - u)))). split; [lia|].
  destruct (ts_rbf_bounds ts x P ltac:(lia)) as [B _]. fold u c in B. rewrite Zle_Qle. eapply Qle_trans; [exact B|].
  assert (A : (c / (1 - u) <= inject_Z x)%Q). { eapply Qle_trans; [apply Qle_ceiling|]. rewrite <- Zle_Qle. lia. }
  assert (W : (0 < 1 - u)%Q) by lra. assert (B2 : (c <= inject_Z x * (1 - u))%Q). { apply (Qmult_le_r _ _ (1 - u) W) in A. setoid_replace (c / (1 - u) * (1 - u))%Q with c in A; [exact A|field; lra]. }
  lra.
Qed.

(** * Sorting *)

Lemma insert_deadline_perm t l : Permutation (insert_deadline t l) (t :: l).
Proof. induction l as [|u r IH]; [reflexivity|]. cbn. destruct (t_deadline t <=? t_deadline u); [reflexivity|]. rewrite IH. apply perm_swap. Qed.

Lemma sort_deadline_perm l : Permutation (sort_by_deadline l) l.
Proof. induction l as [|t l IH]; [reflexivity|]. cbn. rewrite insert_deadline_perm. constructor. exact IH. Qed.

Definition by_deadline (l : taskset) : Prop := StronglySorted (fun a b => t_deadline a <= t_deadline b) l.

Lemma sort_deadline_sorted l : by_deadline (sort_by_deadline l).
Proof.
  induction l as [|t l IH]; [constructor|]. cbn [sort_by_deadline fold_right]. fold (sort_by_deadline l). revert IH. generalize (sort_by_deadline l). clear l. unfold by_deadline. intros l. induction l as [|u r IHr]; intros H; [repeat constructor|]. cbn [insert_deadline].
  inversion H as [|? ? H1 H2]; subst. destruct (Z.leb_spec (t_deadline t) (t_deadline u)) as [L|L].
  - constructor; [exact H|]. constructor; [exact L|]. eapply Forall_impl; [|exact H2]. cbn. intros; lia.
  - constructor; [apply IHr; exact H1|]. eapply Permutation_Forall; [symmetry; apply insert_deadline_perm|]. constructor; [lia|exact H2].
Qed.

Lemma sorted_nth l i j : by_deadline l -> (i < j < length l)%nat -> t_deadline (nth i l dflt) <= t_deadline (nth j l dflt).
Proof.
  intros H. revert i j. induction H as [|t l H IH F]; intros i j L; cbn [length] in L; [lia|]. destruct j as [|j]; [lia|]. destruct i as [|i]; cbn [nth].
  - rewrite Forall_forall in F. apply F, nth_In. lia.
  - apply IH. lia.
Qed.

Definition distinct_tail (l : taskset) : Prop := NoDup (map t_deadline (tl l)).

Lemma strict_nth l i j : by_deadline l -> distinct_tail l -> (0 < i < j)%nat -> (j < length l)%nat -> t_deadline (nth i l dflt) < t_deadline (nth j l dflt).
Proof.
  intros S N I J. pose proof (sorted_nth l i j S ltac:(lia)) as A. destruct (Z.eq_dec (t_deadline (nth i l dflt)) (t_deadline (nth j l dflt))) as [E|E]; [|lia]. exfalso. destruct l as [|t l]; [cbn in J; lia|]. destruct i as [|i]; [lia|]. destruct j as [|j]; [lia|].
  unfold distinct_tail in N. cbn [tl nth length] in *. rewrite (NoDup_nth _ 0) in N. assert (i = j); [|lia]. apply N; rewrite ?map_length; [lia|lia|]. change 0 with (t_deadline dflt). rewrite !map_nth. exact E.
Qed.

(** * The last loop *)

Lemma back_pass_fst : forall ts s, length s = length ts -> map fst (fst (back_pass ts s)) = ts.
Proof.
  induction ts as [|t ts IH]; intros [|x s] H; cbn in H; try discriminate; [reflexivity|]. cbn [back_pass]. specialize (IH s ltac:(lia)). destruct (back_pass ts s) as [rest m]. cbn [fst map] in *. rewrite IH. reflexivity.
Qed.

Lemma back_pass_le : forall ts s v k, length s = length ts -> (k < length ts)%nat -> le_inf (nth k s None) v ->
  le_inf (snd (back_pass ts s)) v /\ forall j, (j <= k)%nat -> exists r, nth_error (fst (back_pass ts s)) j = Some (nth j ts dflt, Some r) /\ t_deadline (nth j ts dflt) - v <= r.
Proof.
  induction ts as [|t ts IH]; intros [|x s] v k HL HK H; cbn [length] in *; try lia. cbn [back_pass]. destruct k as [|k].
  - destruct (back_pass ts s) as [rest m]. cbn [fst snd nth] in *. pose proof (min_inf_le_r m x v H) as [y [E L]]. rewrite E. split; [eexists; split; [reflexivity|lia]|]. intros j J. assert (j = 0%nat) by lia; subst j. cbn [nth_error nth option_map]. eexists. split; [reflexivity|]. lia.
  - cbn [nth] in H. destruct (IH s v k ltac:(lia) ltac:(lia) H) as [I1 I2]. destruct (back_pass ts s) as [rest m]. cbn [fst snd] in *. pose proof (min_inf_le_l m x v I1) as [y [E L]]. rewrite E. split; [eexists; split; [reflexivity|lia]|].
    intros [|j] J; cbn [nth_error nth option_map]; [eexists; split; [reflexivity|lia]|]. apply I2. lia.
Qed.

Lemma back_pass_ge : forall ts s, (forall k v, nth k s None = Some v -> 0 <= v) -> (forall v, snd (back_pass ts s) = Some v -> 0 <= v) /\
  forall j t r, nth_error (fst (back_pass ts s)) j = Some (t, Some r) -> r <= t_deadline t.
Proof.
  induction ts as [|t ts IH]; intros [|x s] H; try (split; [intros v E; discriminate|intros [|j] ? ? E; discriminate]). cbn [back_pass]. destruct (IH s) as [I1 I2]; [intros k v; apply (H (S k) v)|]. destruct (back_pass ts s) as [rest m]. cbn [fst snd] in *.
  assert (Q : forall v, min_inf m x = Some v -> 0 <= v). { intros v E. destruct m as [a|], x as [b|]; cbn in E; inversion E; subst; try (specialize (I1 _ eq_refl)); try (pose proof (H 0%nat _ eq_refl)); lia. }
  split; [exact Q|]. intros [|j] t' r E; cbn [nth_error] in E; [|eapply I2; exact E]. destruct (min_inf m x) as [v|] eqn:M; cbn [option_map] in E; inversion E; subst. specialize (Q v eq_refl). lia.
Qed.

Lemma back_pass_compare : forall ts se sa, length se = length ts -> length sa = length ts -> (forall k, ge_inf (nth k se None) (nth k sa None)) ->
  ge_inf (snd (back_pass ts se)) (snd (back_pass ts sa)) /\
  forall j t re ra, nth_error (fst (back_pass ts se)) j = Some (t, Some re) -> nth_error (fst (back_pass ts sa)) j = Some (t, Some ra) -> re <= ra.
Proof.
  induction ts as [|t ts IH]; intros [|x se] [|y sa] L1 L2 H; cbn [length] in *; try lia; [split; [reflexivity|intros [|j] ? ? ? E; discriminate]|]. cbn [back_pass].
  destruct (IH se sa ltac:(lia) ltac:(lia) (fun k => H (S k))) as [I1 I2]. destruct (back_pass ts se) as [r1 m1], (back_pass ts sa) as [r2 m2]. cbn [fst snd] in *. pose proof (ge_inf_min _ _ _ _ I1 (H 0%nat)) as G. cbn [nth] in G.
  split; [exact G|]. intros [|j] t' re ra E1 E2; cbn [nth_error] in *; [|eapply I2; eassumption].
  destruct (min_inf m1 x), (min_inf m2 y); cbn [option_map] in *; inversion E1; inversion E2; subst. cbn in G. lia.
Qed.

(** * The whole functions *)

Lemma max_deadline_ge : forall ts t, In t ts -> t_deadline t <= max_deadline ts.
Proof.
  assert (G : forall l m, m <= fold_left (fun m u => Z.max m (t_deadline u)) l m /\ forall t, In t l -> t_deadline t <= fold_left (fun m u => Z.max m (t_deadline u)) l m).
  { induction l as [|u l IH]; intros m; cbn [fold_left]; [split; [lia|intros t []]|]. destruct (IH (Z.max m (t_deadline u))) as [I1 I2]. split; [lia|]. intros t [->|H]; [lia|apply I2; exact H]. }
  intros [|u l] t H; [destruct H|]. cbn [max_deadline]. destruct (G l (t_deadline u)) as [G1 G2]. destruct H as [->|H]; [exact G1|apply G2; exact H].
Qed.

Definition slack_ok (l : list (task * option Z)) (ts : taskset) (g : Z -> Z) : Prop :=
  forall p j, (j < length ts)%nat -> t_deadline (nth j ts dflt) <= p -> exists r, nth_error l j = Some (nth j ts dflt, Some r) /\ t_deadline (nth j ts dflt) - (p - g p) <= r.

Section Top.
Variables (fuel : nat) (ts : taskset).
Variable POS : Forall pos_task ts.
Let srt := sort_by_deadline ts.

Lemma POS_srt : Forall pos_task srt.
Proof. eapply Permutation_Forall; [symmetry; apply sort_deadline_perm|exact POS]. Qed.

Lemma approx_inv l : approx_wcrt fuel ts = GYTimes l ->
  (ts_utilization ts None <= 1)%Q /\ srt <> [] /\ exists deltas, delta_values fuel srt = Some deltas /\ l = fst (back_pass srt (approx_loop srt deltas 0 (repeat None (length srt)))).
Proof.
  unfold approx_wcrt. fold srt. intros H. destruct (Qle_bool (ts_utilization ts None) 1) eqn:U; cbn [negb] in H; [|discriminate]. apply Qle_bool_iff in U. split; [exact U|].
  destruct srt as [|t r] eqn:ES; [discriminate|]. split; [discriminate|]. destruct (delta_values fuel (t :: r)) as [deltas|]; [|discriminate]. inversion H; subst. eauto.
Qed.

Lemma exact_inv l : exact_wcrt fuel ts = GYTimes l ->
  (ts_utilization ts None <= 1)%Q /\ srt <> [] /\ exists deltas s, delta_values fuel srt = Some deltas /\ exact_loop fuel srt deltas 0 (repeat None (length srt)) = Some s /\ l = fst (back_pass srt s).
Proof.
  unfold exact_wcrt. fold srt. intros H. destruct (Qle_bool (ts_utilization ts None) 1) eqn:U; cbn [negb] in H; [|discriminate]. apply Qle_bool_iff in U. split; [exact U|].
  destruct srt as [|t r] eqn:ES; [discriminate|]. split; [discriminate|]. destruct (delta_values fuel (t :: r)) as [deltas|]; [|discriminate]. destruct (exact_loop fuel (t :: r) deltas 0 (repeat None (length (t :: r)))) as [s|] eqn:EE; [|discriminate]. inversion H; subst. eauto.
Qed.

Lemma deltas_spec deltas : delta_values fuel srt = Some deltas -> srt <> [] -> exists L, 0 < L /\ ts_rbf srt L <= L /\ (forall x, 0 <= x -> ts_rbf srt x <= x -> L <= x) /\ find_L_prime fuel srt 0 = Some L /\ StronglySorted Z.lt deltas /\
  forall x, In x deltas <-> (0 <= x <= L + max_deadline srt /\ ts_dbf srt x <> ts_dbf srt (x - 1)).
Proof.
  intros H NE. unfold delta_values in H. destruct (find_L_prime fuel srt 0) as [L|] eqn:FL; [|discriminate]. pose proof FL as FL2. apply find_L_prime_least in FL2; [|apply POS_srt|lia|intros; assumption]. destruct FL2 as [L1 [L2 L3]].
  apply ts_dbf_points_spec in H; [|apply POS_srt]. destruct H as [S1 S2]. exists L. repeat split; try assumption.
  - destruct (Z.eq_dec L 0) as [->|]; [|lia]. exfalso. pose proof POS_srt as PS. destruct srt as [|t r]; [congruence|]. unfold ts_rbf in L2. cbn [map zsum] in L2. inversion PS as [|? ? [PT [PD PC]] PR]; subst.
    assert (0 <= zsum (map (fun t => rbf t 0) r)). { apply zsum_nonneg. intros x Hx. apply in_map_iff in Hx. destruct Hx as [u [<- Hu]]. rewrite Forall_forall in PR. destruct (PR u Hu) as [? [? ?]]. unfold rbf. cbn [Z.ltb Z.compare]. pose proof (Z.div_pos 0 (t_period u) ltac:(lia) ltac:(lia)). nia. }
    unfold rbf in L2 at 1. cbn [Z.ltb Z.compare] in L2. rewrite Z.div_0_l in L2 by lia. lia.
  - specialize (S2 x). rewrite Z.add_0_r in S2. apply S2. assumption.
  - specialize (S2 x). rewrite Z.add_0_r in S2. apply S2. assumption.
  - specialize (S2 x). rewrite Z.add_0_r in S2. apply S2. assumption.
  - intros A. specialize (S2 x). rewrite Z.add_0_r in S2. apply S2. assumption.
Qed.

Lemma start_ok deltas : delta_values fuel srt = Some deltas -> srt <> [] ->
  (0 < length srt)%nat /\ StronglySorted Z.lt deltas /\ (forall x, In x deltas -> t_deadline (nth 0 srt dflt) - 1 < x) /\
  (forall j, (j < length srt)%nat -> t_deadline (nth j srt dflt) <= t_deadline (nth 0 srt dflt) - 1 -> (j <= 0)%nat) /\
  (forall j, (j < length srt)%nat -> t_deadline (nth j srt dflt) <= t_deadline (nth 0 srt dflt) - 1 \/ In (t_deadline (nth j srt dflt)) deltas).
Proof.
  intros H NE. destruct (deltas_spec deltas H NE) as [L [L1 [L2 [L3 [_ [S1 S2]]]]]]. assert (N0 : (0 < length srt)%nat) by (destruct srt; [congruence|cbn; lia]).
  assert (SN : forall j, (j < length srt)%nat -> t_deadline (nth 0 srt dflt) <= t_deadline (nth j srt dflt)) by (intros [|j] J; [lia|apply sorted_nth; [apply sort_deadline_sorted|lia]]).
  split; [exact N0|]. split; [exact S1|]. split; [|split].
  - intros x Hx. apply S2 in Hx. destruct Hx as [B NEQ]. destruct (Z.lt_ge_cases (t_deadline (nth 0 srt dflt) - 1) x) as [A|A]; [exact A|]. exfalso. apply NEQ.
    unfold ts_dbf. apply zsum_map_ext. intros t Ht. destruct (In_nth _ _ dflt Ht) as [j [J <-]]. specialize (SN j J). pose proof POS_srt as PS. rewrite Forall_forall in PS. destruct (PS _ Ht) as [PT [PD PC]]. unfold dbf.
    destruct (Z.leb_spec x 0), (Z.leb_spec (x - 1) 0); try lia.
    + pose proof (div_spec (x - t_deadline (nth j srt dflt)) (t_period (nth j srt dflt)) PT). assert ((x - t_deadline (nth j srt dflt)) / t_period (nth j srt dflt) < 0) by nia. nia.
    + pose proof (div_spec (x - t_deadline (nth j srt dflt)) (t_period (nth j srt dflt)) PT). assert ((x - t_deadline (nth j srt dflt)) / t_period (nth j srt dflt) < 0) by nia.
      pose proof (div_spec (x - 1 - t_deadline (nth j srt dflt)) (t_period (nth j srt dflt)) PT). assert ((x - 1 - t_deadline (nth j srt dflt)) / t_period (nth j srt dflt) < 0) by nia. nia.
  - intros j J A. specialize (SN j J). lia.
  - intros j J. right. apply S2. pose proof POS_srt as PS. assert (IJ : In (nth j srt dflt) srt) by (apply nth_In, J). pose proof (max_deadline_ge srt _ IJ). rewrite Forall_forall in PS. destruct (PS _ IJ) as [PT [PD PC]]. split; [lia|]. apply dbf_step; [apply POS_srt|exact IJ].
Qed.

Variable DIST : distinct_tail srt.

Lemma approx_slack l : approx_wcrt fuel ts = GYTimes l -> map fst l = srt /\ exists deltas, delta_values fuel srt = Some deltas /\
  forall p j, In p deltas -> (j < length srt)%nat -> t_deadline (nth j srt dflt) <= p -> exists r, nth_error l j = Some (nth j srt dflt, Some r) /\ t_deadline (nth j srt dflt) - (p - ts_dbf srt p) <= r.
Proof.
  intros H. apply approx_inv in H. destruct H as [_ [NE [deltas [HD ->]]]]. destruct (start_ok deltas HD NE) as [N0 [S1 [S2 [S3 S4]]]].
  destruct (approx_loop_ok srt (fun i j A B => strict_nth srt i j (sort_deadline_sorted ts) DIST A B) deltas 0 (repeat None (length srt)) _ N0 (repeat_length _ _) S1 S2 S3 S4) as [_ [R2 R3]].
  split; [apply back_pass_fst; exact R2|]. exists deltas. split; [exact HD|]. intros p j Hp Hj HDj. destruct (R3 p Hp j Hj HDj) as [k [K1 K2]]. destruct (back_pass_le srt _ _ k R2 (proj2 K1) K2) as [_ B]. apply B. lia.
Qed.

Lemma exact_slack l : exact_wcrt fuel ts = GYTimes l -> map fst l = srt /\ exists deltas, delta_values fuel srt = Some deltas /\
  forall p j, In p deltas -> (j < length srt)%nat -> t_deadline (nth j srt dflt) <= p -> exists g, least_gamma srt p g /\ exists r, nth_error l j = Some (nth j srt dflt, Some r) /\ t_deadline (nth j srt dflt) - (p - g) <= r.
Proof.
  intros H. apply exact_inv in H. destruct H as [_ [NE [deltas [s [HD [HE ->]]]]]]. destruct (start_ok deltas HD NE) as [N0 [S1 [S2 [S3 S4]]]].
  destruct (exact_loop_ok srt (fun i j A B => strict_nth srt i j (sort_deadline_sorted ts) DIST A B) POS_srt fuel deltas 0 (repeat None (length srt)) _ s N0 (repeat_length _ _) S1 S2 S3 S4 HE) as [_ [R2 R3]].
  split; [apply back_pass_fst; exact R2|]. exists deltas. split; [exact HD|]. intros p j Hp Hj HDj.
  destruct (gamma_total srt POS_srt p (S (Z.to_nat (ts_dbf srt p - 0))) 0 (mbf srt p 0)) as [g G]; [lia|apply mbf_nonneg; [apply POS_srt|lia]|reflexivity|lia|]. apply gamma_least in G; [|apply POS_srt].
  exists g. split; [exact G|]. destruct (R3 p g Hp G j Hj HDj) as [k [K1 K2]]. destruct (back_pass_le srt _ _ k R2 (proj2 K1) K2) as [_ B]. apply B. lia.
Qed.
End Top.

Lemma approx_loop_len ts : forall deltas i s, length (approx_loop ts deltas i s) = length s.
Proof. induction deltas as [|d r IH]; intros i s; [reflexivity|]. cbn [approx_loop]. cbv zeta. rewrite IH, set_slack_len. reflexivity. Qed.

Lemma exact_loop_len fuel ts : forall deltas i s s2, exact_loop fuel ts deltas i s = Some s2 -> length s2 = length s.
Proof.
  induction deltas as [|d r IH]; intros i s s2 H; [inversion H; reflexivity|]. cbn [exact_loop] in H. cbv zeta in H. destruct (lt_inf _ _); [|apply IH in H; exact H].
  destruct (gamma_loop fuel ts d 0 (mbf ts d 0)); [|discriminate]. apply IH in H. rewrite set_slack_len in H. exact H.
Qed.

Lemma approx_order fuel ts l : approx_wcrt fuel ts = GYTimes l -> map fst l = sort_by_deadline ts.
Proof. intros H. apply approx_inv in H. destruct H as [_ [_ [d [_ ->]]]]. apply back_pass_fst. rewrite approx_loop_len, repeat_length. reflexivity. Qed.

Lemma exact_order fuel ts l : exact_wcrt fuel ts = GYTimes l -> map fst l = sort_by_deadline ts.
Proof. intros H. apply exact_inv in H. destruct H as [_ [_ [d [s [_ [HE ->]]]]]]. apply back_pass_fst. rewrite (exact_loop_len _ _ _ _ _ _ HE), repeat_length. reflexivity. Qed.

(** every job responds within the bound *)
Section Safe.
Variables (fuel : nat) (ts : taskset) (s : jobseq) (sc : schedule).
Variable POS : Forall pos_task ts.
Let srt := sort_by_deadline ts.
Variable DIST : distinct_tail srt.
Variable LEG : legal_edf (map etask_of_task srt) s.
Variable VAL : valid_schedule (length srt) s sc.
Variable POL : edf_policy (map etask_of_task srt) s sc.

Lemma completed_later j t t' : completed s sc j t -> (t <= t')%nat -> completed s sc j t'.
Proof. unfold completed. intros H L. pose proof (service_mono sc j t t' L). lia. Qed.

Lemma safe_gen l (bound : Z -> Z -> Prop) : srt <> [] ->
  (exists deltas, delta_values fuel srt = Some deltas /\ forall p j, In p deltas -> (j < length srt)%nat -> t_deadline (nth j srt dflt) <= p ->
    exists g, bound p g /\ exists r, nth_error l j = Some (nth j srt dflt, Some r) /\ t_deadline (nth j srt dflt) - (p - g) <= r) ->
  (forall p g, bound p g -> mbf srt p g <= g /\ 0 <= g) ->
  forall i k, (i < length srt)%nat -> exists r, nth_error l i = Some (nth i srt dflt, Some r) /\ 0 < r /\ completed s sc (i, k) (Z.to_nat (Z.of_nat (arr s i k) + r)).
Proof.
  intros NE [deltas [HD HS]] HB i k Hi. pose proof (POS_srt ts POS) as PS. fold srt in PS. destruct (response srt s sc PS LEG VAL POL i k Hi) as [delta [D1 [D2 [R1 R2]]]].
  destruct (deltas_spec fuel ts POS deltas HD NE) as [L [L1 [L2 [L3 [_ [S1 S2]]]]]]. fold srt in L2, L3, S2. specialize (R2 L L1 L2). pose proof (nth_In srt dflt Hi) as IN.
  destruct (last_point srt _ PS IN (Z.to_nat (delta - t_deadline (nth i srt dflt))) delta ltac:(lia)) as [p [P1 [P2 P3]]].
  assert (PI : In p deltas). { apply S2. pose proof (max_deadline_ge srt _ IN). rewrite Forall_forall in PS. destruct (PS _ IN) as [? [? ?]]. split; [lia|exact P2]. }
  destruct (HS p i PI Hi ltac:(lia)) as [g [G1 [r [E1 E2]]]]. destruct (HB p g G1) as [B1 B2].
  pose proof (mbf_at_least srt PS p g _ B2 IN ltac:(lia)) as MC. assert (0 < t_cost (nth i srt dflt)) by (rewrite Forall_forall in PS; destruct (PS _ IN) as [? [? ?]]; assumption).
  destruct (R1 g ltac:(lia)) as [Q1 Q2]; [rewrite <- (mbf_same srt p delta g PS ltac:(lia) P3); exact B1|]. exists r. split; [exact E1|]. split; [lia|]. eapply completed_later; [exact Q2|]. lia.
Qed.

Lemma approx_safe l : approx_wcrt fuel ts = GYTimes l -> forall i k, (i < length srt)%nat -> exists r, nth_error l i = Some (nth i srt dflt, Some r) /\ 0 < r /\ completed s sc (i, k) (Z.to_nat (Z.of_nat (arr s i k) + r)).
Proof.
  intros H. pose proof (approx_inv fuel ts l H) as [_ [NE _]]. apply (safe_gen l (fun p g => g = ts_dbf srt p) NE).
  - destruct (approx_slack fuel ts POS DIST l H) as [_ [deltas [HD HS]]]. exists deltas. split; [exact HD|]. intros p j P J D. exists (ts_dbf srt p). split; [reflexivity|]. apply HS; assumption.
  - intros p g ->. split; [apply mbf_le_dbf|]. eapply Z.le_trans; [apply (mbf_nonneg srt (POS_srt ts POS) p 0); lia|apply mbf_le_dbf].
Qed.

Lemma exact_safe l : exact_wcrt fuel ts = GYTimes l -> forall i k, (i < length srt)%nat -> exists r, nth_error l i = Some (nth i srt dflt, Some r) /\ 0 < r /\ completed s sc (i, k) (Z.to_nat (Z.of_nat (arr s i k) + r)).
Proof.
  intros H. pose proof (exact_inv fuel ts l H) as [_ [NE _]]. apply (safe_gen l (least_gamma srt) NE).
  - destruct (exact_slack fuel ts POS DIST l H) as [_ [deltas [HD HS]]]. exists deltas. split; [exact HD|exact HS].
  - intros p g [G1 [G2 _]]. lia.
Qed.
End Safe.

Lemma exact_le_approx fuel ts le la : Forall pos_task ts -> exact_wcrt fuel ts = GYTimes le -> approx_wcrt fuel ts = GYTimes la ->
  forall i t re ra, nth_error le i = Some (t, Some re) -> nth_error la i = Some (t, Some ra) -> re <= ra.
Proof.
  intros P HE HA. apply exact_inv in HE. apply approx_inv in HA. destruct HE as [_ [NE [d [s [HD [HL ->]]]]]]. destruct HA as [_ [_ [d' [HD' ->]]]]. rewrite HD in HD'. inversion HD'; subst d'.
  apply back_pass_compare; [rewrite (exact_loop_len _ _ _ _ _ _ HL); apply repeat_length|rewrite approx_loop_len; apply repeat_length|].
  eapply loops_compare; [apply (POS_srt ts P)|reflexivity| |exact HL]. intros k. destruct (nth_in_or_default k (repeat (@None Z) (length (sort_by_deadline ts))) None) as [I|E].
  - apply repeat_spec in I. rewrite I. reflexivity.
  - rewrite E. reflexivity.
Qed.

(** the response time covers the job and every task with an earlier deadline *)
Lemma exact_lower fuel ts l : Forall pos_task ts -> distinct_tail (sort_by_deadline ts) -> exact_wcrt fuel ts = GYTimes l -> forall i t r, nth_error l i = Some (t, Some r) ->
  zsum (map t_cost (filter (fun u => t_deadline u <=? t_deadline t) ts)) <= r.
Proof.
  intros P DI H i t r E. pose proof (exact_inv fuel ts l H) as [_ [NE _]]. destruct (exact_slack fuel ts P DI l H) as [F [deltas [HD HS]]]. set (srt := sort_by_deadline ts) in *. pose proof (POS_srt ts P) as PS. fold srt in PS.
  assert (Hi : (i < length srt)%nat) by (rewrite <- F, map_length; eapply nth_error_Some_lt; exact E).
  assert (T : t = nth i srt dflt). { rewrite <- F. symmetry. apply nth_error_nth. rewrite nth_error_map, E. reflexivity. }
  destruct (start_ok fuel ts P deltas HD NE) as [_ [_ [S0 [_ S4]]]]. fold srt in S4. pose proof (nth_In srt dflt Hi) as IN.
  assert (PI : In (t_deadline (nth i srt dflt)) deltas). { destruct (S4 i Hi) as [A|A]; [|exact A]. exfalso. destruct i; [lia|]. pose proof (sorted_nth srt 0 (S i) (sort_deadline_sorted ts) ltac:(lia)). lia. }
  destruct (HS _ i PI Hi ltac:(lia)) as [g [[G1 [G2 _]] [r' [E' L]]]]. rewrite E in E'. inversion E'; subst r'. rewrite <- T in *.
  apply Z.le_trans with g; [|lia]. rewrite <- G1. unfold mbf. rewrite zsum_map_filter.
  rewrite <- (zsum_perm (map (fun u => b2z (t_deadline u <=? t_deadline t) * t_cost u) srt)); [|apply Permutation_map, sort_deadline_perm].
  apply zsum_map_le. intros u Hu. rewrite Forall_forall in PS. destruct (PS u Hu) as [PT [PD PC]]. pose proof (PS _ IN) as [? [? ?]]. unfold mbf_i, dbf, rbf. destruct (Z.ltb_spec g 0); [lia|]. destruct (Z.leb_spec (t_deadline t) 0); [lia|]. pose proof (Z.div_pos g (t_period u) ltac:(lia) ltac:(lia)).
  destruct (Z.leb_spec (t_deadline u) (t_deadline t)); cbn [b2z].
  - pose proof (Z.div_pos (t_deadline t - t_deadline u) (t_period u) ltac:(lia) ltac:(lia)). apply Z.min_glb; nia.
  - apply Z.min_glb; nia.
Qed.

(** termination *)
Lemma gy_terminates ts : Forall pos_task ts -> ts <> [] -> (ts_utilization ts None < 1)%Q ->
  exists n, forall fuel, (n <= fuel)%nat -> (exists l, approx_wcrt fuel ts = GYTimes l) /\ exists l, exact_wcrt fuel ts = GYTimes l.
Proof.
  intros P NE U. set (srt := sort_by_deadline ts). pose proof (POS_srt ts P) as PS. fold srt in PS.
  assert (ES : srt <> []). { intros E. apply NE. apply Permutation_nil. rewrite <- E. apply sort_deadline_perm. }
  assert (US : (ts_utilization srt None < 1)%Q).
  { unfold ts_utilization in *. assert (QP : forall l l', Permutation l l' -> (qsum l == qsum l')%Q). { induction 1; cbn [qsum fold_right]; try fold (qsum l) (qsum l'); try fold (qsum l); [reflexivity|rewrite IHPermutation; reflexivity|ring|etransitivity; eassumption]. }
    rewrite (QP _ (map utilization ts)); [exact U|]. apply Permutation_map, sort_deadline_perm. }
  destruct (fixpoint_exists srt PS US) as [x [X1 X2]]. destruct (find_L_prime_total srt x PS X1 X2 (S (Z.to_nat x)) 0 ltac:(lia) ltac:(lia)) as [L HL].
  assert (LU : forall fuel, (S (Z.to_nat x) <= fuel)%nat -> find_L_prime fuel srt 0 = Some L).
  { intros fuel HF. destruct (find_L_prime_total srt x PS X1 X2 fuel 0 ltac:(lia) ltac:(lia)) as [L' HL']. rewrite HL'. f_equal. pose proof HL as A. pose proof HL' as B. apply find_L_prime_least in A; [|exact PS|lia|auto]. apply find_L_prime_least in B; [|exact PS|lia|auto]. destruct A as [A1 [A2 A3]], B as [B1 [B2 B3]]. specialize (A3 L' B1 B2). specialize (B3 L A1 A2). lia. }
  destruct (ts_dbf_points_total srt (L + max_deadline srt) 0 PS) as [n2 H2]. exists (S (Z.to_nat x) + n2 + S (Z.to_nat (ts_dbf srt (L + max_deadline srt))))%nat. intros fuel HF.
  assert (UB : Qle_bool (ts_utilization ts None) 1 = true) by (apply Qle_bool_iff, Qlt_le_weak, U).
  destruct (H2 fuel ltac:(lia)) as [deltas HD]. assert (DV : delta_values fuel srt = Some deltas) by (unfold delta_values; rewrite LU by lia; exact HD).
  unfold approx_wcrt, exact_wcrt. rewrite UB. cbn [negb]. cbv zeta. fold srt. rewrite DV. destruct srt as [|t r] eqn:EQ; [congruence|]. split; [eauto|].
  destruct (exact_loop_total (t :: r) PS fuel deltas 0 (repeat None (length (t :: r)))) as [s2 ->]; [|eauto].
  intros p Hp. apply ts_dbf_points_spec in HD; [|exact PS]. apply HD in Hp. pose proof (ts_dbf_mono (t :: r) p (L + max_deadline (t :: r)) PS ltac:(lia)). lia.
Qed.

Lemma gy_diverges ts : Forall pos_task ts -> ts <> [] -> (ts_utilization ts None == 1)%Q -> forall fuel, approx_wcrt fuel ts = GYRunning /\ exact_wcrt fuel ts = GYRunning.
Proof.
  intros P NE U fuel. set (srt := sort_by_deadline ts). pose proof (POS_srt ts P) as PS. fold srt in PS.
  assert (ES : srt <> []). { intros E. apply NE. apply Permutation_nil. rewrite <- E. apply sort_deadline_perm. }
  assert (US : (ts_utilization srt None == 1)%Q).
  { unfold ts_utilization in *. assert (QP : forall l l', Permutation l l' -> (qsum l == qsum l')%Q). { induction 1; cbn [qsum fold_right]; try fold (qsum l) (qsum l'); try fold (qsum l); [reflexivity|rewrite IHPermutation; reflexivity|ring|etransitivity; eassumption]. }
    rewrite (QP _ (map utilization ts)); [exact U|]. apply Permutation_map, sort_deadline_perm. }
  assert (FN : find_L_prime fuel srt 0 = None).
  { apply find_L_prime_none; [|lia]. intros x X. destruct (ts_rbf_bounds srt x PS X) as [_ [_ B]]. specialize (B ES). rewrite US, Qmult_1_r in B. rewrite Zlt_Qlt. exact B. }
  assert (UB : Qle_bool (ts_utilization ts None) 1 = true) by (apply Qle_bool_iff; rewrite U; apply Qle_refl).
  unfold approx_wcrt, exact_wcrt, delta_values. rewrite UB. cbn [negb]. cbv zeta. fold srt. rewrite FN. destruct srt; [congruence|]. split; reflexivity.
Qed.

(** * The verdict: every response time within the deadline iff the demand criterion *)

Lemma dbf_split t x g : pos_task t -> 0 <= g -> g < x -> dbf t x <= mbf_i t x g + dbf t (x - g).
Proof.
  intros [P [D C]] G X. unfold mbf_i. assert (0 <= dbf t (x - g)) by (unfold dbf; destruct (x - g <=? 0); lia). destruct (Z.min_spec (dbf t x) (rbf t g)) as [[_ ->]|[_ ->]]; [lia|].
  unfold dbf, rbf. destruct (Z.ltb_spec g 0); [lia|]. destruct (Z.leb_spec x 0); [lia|]. destruct (Z.leb_spec (x - g) 0); [lia|].
  set (a := (x - t_deadline t) / t_period t). set (b := (x - g - t_deadline t) / t_period t). set (q := g / t_period t).
  pose proof (div_spec (x - t_deadline t) (t_period t) P) as A. pose proof (div_spec (x - g - t_deadline t) (t_period t) P) as B. pose proof (div_spec g (t_period t) P) as Q. fold a in A. fold b in B. fold q in Q.
  assert (a <= b + q + 1) by nia. assert (0 <= q) by nia. nia.
Qed.

Lemma ts_dbf_split ts x g : Forall pos_task ts -> 0 <= g -> g < x -> ts_dbf ts x <= mbf ts x g + ts_dbf ts (x - g).
Proof.
  intros P G X. unfold ts_dbf, mbf. rewrite <- zsum_map_add. apply zsum_map_le. intros t Ht. rewrite Forall_forall in P. apply dbf_split; auto.
Qed.

Definition demand_ok (ts : taskset) : Prop := forall x, 0 <= x -> ts_dbf ts x <= x.

(** if a point up to [L + max deadline] at which demand exceeds time exists, there is a least one *)
Lemma demand_points ts L : Forall pos_task ts -> 0 < L -> ts_rbf ts L <= L ->
  (forall x g, 0 <= x <= L + max_deadline ts -> ts_dbf ts x <> ts_dbf ts (x - 1) -> least_gamma ts x g -> (forall y, 0 <= y < x -> ts_dbf ts y <= y) -> g <= x) -> demand_ok ts.
Proof.
  intros P L0 LR H x. assert (G : forall n x, (Z.to_nat x <= n)%nat -> 0 <= x -> ts_dbf ts x <= x); [|intros X; apply (G (Z.to_nat x)); lia].
  induction n as [|n IH]; intros y YN Y0.
  - assert (y = 0) by lia. subst y. unfold ts_dbf. rewrite (zsum_map_ext _ _ (fun _ => 0)); [rewrite zsum_map_const; lia|]. intros t _. reflexivity.
  - assert (IHy : forall z, 0 <= z < y -> ts_dbf ts z <= z) by (intros z Z; apply IH; lia).
    destruct (Z.eq_dec (ts_dbf ts y) (ts_dbf ts (y - 1))) as [E|E].
    + destruct (Z.eq_dec y 0) as [->|]; [apply (IH 0); lia|]. rewrite E. specialize (IHy (y - 1) ltac:(lia)). lia.
    + destruct (Z.le_gt_cases y (L + max_deadline ts)) as [YL|YL].
      * destruct (gamma_total ts P y (S (Z.to_nat (ts_dbf ts y - 0))) 0 (mbf ts y 0)) as [g G]; [lia|apply mbf_nonneg; [exact P|lia]|reflexivity|lia|]. apply gamma_least in G; [|exact P]. pose proof (H y g ltac:(lia) E G IHy) as GY. destruct G as [G1 [G2 _]].
        destruct (Z.eq_dec y 0) as [->|]; [unfold ts_dbf; rewrite (zsum_map_ext _ _ (fun _ => 0)); [rewrite zsum_map_const; lia|]; intros t _; reflexivity|].
        destruct (Z.eq_dec g 0) as [->|]; [|destruct (Z.eq_dec g y) as [->|]].
        -- (* no demand at all *) assert (Q : forall t, In t ts -> mbf_i t y 0 <= 0).
           { intros t Ht. apply Z.le_trans with (mbf ts y 0); [|lia]. unfold mbf. apply (zsum_in_le _ (fun t => mbf_i t y 0)); [|exact Ht]. intros u Hu. rewrite Forall_forall in P. destruct (P u Hu) as [? [? ?]]. unfold mbf_i, dbf, rbf. cbn [Z.ltb Z.compare]. pose proof (Z.div_pos 0 (t_period u) ltac:(lia) ltac:(lia)). apply Z.min_glb; [destruct (y <=? 0); lia|nia]. }
           assert (ts_dbf ts y <= 0); [|lia]. unfold ts_dbf. apply Z.le_trans with (zsum (map (fun _ => 0) ts)); [|rewrite zsum_map_const; lia]. apply zsum_map_le. intros t Ht. specialize (Q t Ht). rewrite Forall_forall in P. destruct (P t Ht) as [? [? ?]]. unfold mbf_i in Q. assert (0 < rbf t 0). { unfold rbf. cbn [Z.ltb Z.compare]. rewrite Z.div_0_l by lia. lia. } lia.
        -- (* every demand within the busy period *) apply Z.le_trans with (mbf ts y y); [|lia]. unfold ts_dbf, mbf. apply zsum_map_le. intros t Ht. rewrite Forall_forall in P. destruct (P t Ht) as [? [? ?]]. unfold mbf_i. apply Z.min_glb; [lia|]. unfold dbf, rbf. destruct (Z.leb_spec y 0); [lia|]. destruct (Z.ltb_spec y 0); [lia|].
           assert ((y - t_deadline t) / t_period t <= y / t_period t) by (apply Z.div_le_mono; lia). pose proof (Z.div_pos y (t_period t) ltac:(lia) ltac:(lia)). nia.
        -- pose proof (ts_dbf_split ts y g P G2 ltac:(lia)). specialize (IHy (y - g) ltac:(lia)). lia.
      * assert (NN : ts <> []) by (intros ->; apply E; reflexivity). assert (0 <= max_deadline ts). { destruct ts as [|t r]; [congruence|]. pose proof (max_deadline_ge (t :: r) t (or_introl eq_refl)). inversion P as [|? ? [? [? ?]] ?]; subst. lia. }
        pose proof (ts_dbf_split ts y L P ltac:(lia) ltac:(lia)). specialize (IHy (y - L) ltac:(lia)). assert (mbf ts y L <= ts_rbf ts L); [|lia]. unfold mbf, ts_rbf. apply zsum_map_le. intros t _. unfold mbf_i. lia.
Qed.

Definition nonneg_slack (s : list (option Z)) : Prop := forall k v, nth k s None = Some v -> 0 <= v.

Lemma nonneg_repeat n : nonneg_slack (repeat None n).
Proof. intros k v H. destruct (nth_in_or_default k (repeat (@None Z) n) None) as [I|E]; [apply repeat_spec in I|]; congruence. Qed.

Lemma nonneg_set i s v : nonneg_slack s -> 0 <= v -> nonneg_slack (set_slack i (min_inf (nth i s None) (Some v)) s).
Proof.
  intros H V k w E. rewrite set_slack_nth in E. destruct (Nat.eqb k i && Nat.ltb i (length s)); [|apply (H k w E)]. destruct (nth i s None) as [y|] eqn:N; cbn in E; inversion E; subst; [|exact V]. specialize (H i y N). lia.
Qed.

Lemma approx_nonneg ts : forall deltas i s, (forall x, In x deltas -> ts_dbf ts x <= x) -> nonneg_slack s -> nonneg_slack (approx_loop ts deltas i s).
Proof.
  induction deltas as [|d r IH]; intros i s H N; [exact N|]. cbn [approx_loop]. cbv zeta. apply IH; [intros; apply H; right; assumption|]. apply nonneg_set; [exact N|]. specialize (H d (or_introl eq_refl)). lia.
Qed.

Lemma exact_nonneg fuel ts : Forall pos_task ts -> forall deltas i s s2, (forall x, In x deltas -> ts_dbf ts x <= x) -> nonneg_slack s -> exact_loop fuel ts deltas i s = Some s2 -> nonneg_slack s2.
Proof.
  intros P. induction deltas as [|d r IH]; intros i s s2 H N RUN; [inversion RUN; subst; exact N|]. cbn [exact_loop] in RUN. cbv zeta in RUN. destruct (lt_inf _ _); [|eapply IH; [intros; apply H; right; assumption|exact N|exact RUN]].
  destruct (gamma_loop fuel ts d 0 (mbf ts d 0)) as [g|] eqn:G; [|discriminate]. eapply IH; [intros; apply H; right; assumption| |exact RUN]. apply nonneg_set; [exact N|]. apply gamma_least in G; [|exact P]. destruct G as [G1 _]. pose proof (mbf_le_dbf ts d g). specialize (H d (or_introl eq_refl)). lia.
Qed.

Lemma ts_dbf_perm ts ts' x : Permutation ts ts' -> ts_dbf ts x = ts_dbf ts' x.
Proof. intros H. unfold ts_dbf. apply zsum_perm, Permutation_map, H. Qed.

Definition within (l : list (task * option Z)) : Prop := forall t r, In (t, r) l -> exists v, r = Some v /\ v <= t_deadline t.

Section Verdict.
Variables (fuel : nat) (ts : taskset).
Variable POS : Forall pos_task ts.
Let srt := sort_by_deadline ts.
Variable DIST : distinct_tail srt.

Lemma verdict_gen l (bound : Z -> Z -> Prop) : srt <> [] -> map fst l = srt ->
  (exists deltas, delta_values fuel srt = Some deltas /\ forall p j, In p deltas -> (j < length srt)%nat -> t_deadline (nth j srt dflt) <= p ->
    exists g, bound p g /\ exists r, nth_error l j = Some (nth j srt dflt, Some r) /\ t_deadline (nth j srt dflt) - (p - g) <= r) ->
  (forall p g gm, bound p g -> least_gamma srt p gm -> gm <= g) ->
  ((forall j t r, nth_error l j = Some (t, Some r) -> r <= t_deadline t) -> within l) /\ (within l -> demand_ok ts).
Proof.
  intros NE FST [deltas [HD HS]] HB. destruct (start_ok fuel ts POS deltas HD NE) as [N0 [S1 [S2 [S3 S4]]]]. fold srt in N0, S2, S3, S4. destruct (deltas_spec fuel ts POS deltas HD NE) as [L [L1 [L2 [L3 [_ [_ SP]]]]]]. fold srt in L2, SP.
  pose proof (POS_srt ts POS) as PS. fold srt in PS. split.
  - intros H t r I. apply In_nth_error in I. destruct I as [j E].
    assert (Hj : (j < length srt)%nat) by (rewrite <- FST, map_length; eapply nth_error_Some_lt; exact E).
    destruct (S4 j Hj) as [A|A]; [exfalso; destruct j; [lia|]; pose proof (sorted_nth srt 0 (S j) (sort_deadline_sorted ts) ltac:(lia)); lia|].
    destruct (HS _ j A Hj ltac:(lia)) as [g [_ [v [E' _]]]]. rewrite E in E'. inversion E'; subst. exists v. split; [reflexivity|]. eapply H. exact E.
  - intros W x X. rewrite <- (ts_dbf_perm srt ts x (sort_deadline_perm ts)). revert x X. apply (demand_points srt L PS L1 L2). intros x g X NEQ LG _.
    assert (I : In x deltas) by (apply SP; split; assumption). specialize (S2 x I). destruct (HS x 0%nat I N0 ltac:(lia)) as [g' [B [r [E R]]]]. pose proof (HB x g' g B LG).
    apply nth_error_In in E. destruct (W _ _ E) as [v [V1 V2]]. inversion V1; subst. lia.
Qed.

Lemma approx_verdict l : approx_wcrt fuel ts = GYTimes l -> (within l <-> demand_ok ts).
Proof.
  intros H. pose proof (approx_inv fuel ts l H) as [_ [NE [deltas' [HD' EL]]]]. destruct (approx_slack fuel ts POS DIST l H) as [FST [deltas [HD HS]]].
  destruct (verdict_gen l (fun p g => g = ts_dbf srt p) NE FST) as [V1 V2].
  - exists deltas. split; [exact HD|]. intros p j P J D. exists (ts_dbf srt p). split; [reflexivity|]. apply HS; assumption.
  - intros p g gm -> [G1 _]. pose proof (mbf_le_dbf srt p gm). lia.
  - split; [exact V2|]. intros DO. apply V1. intros j t r E. rewrite EL in E. eapply back_pass_ge; [|exact E]. apply approx_nonneg; [|apply nonneg_repeat].
    intros x Hx. destruct (deltas_spec fuel ts POS deltas' HD' NE) as [L [_ [_ [_ [_ [_ SP]]]]]]. apply SP in Hx. fold srt. rewrite (ts_dbf_perm srt ts x (sort_deadline_perm ts)). apply DO. lia.
Qed.

Lemma exact_verdict l : exact_wcrt fuel ts = GYTimes l -> (within l <-> demand_ok ts).
Proof.
  intros H. pose proof (exact_inv fuel ts l H) as [_ [NE [deltas' [s [HD' [HE EL]]]]]]. destruct (exact_slack fuel ts POS DIST l H) as [FST [deltas [HD HS]]].
  destruct (verdict_gen l (least_gamma srt) NE FST) as [V1 V2].
  - exists deltas. split; [exact HD|exact HS].
  - intros p g gm [A1 [A2 A3]] [B1 [B2 B3]]. apply B3; lia.
  - split; [exact V2|]. intros DO. apply V1. intros j t r E. rewrite EL in E. eapply back_pass_ge; [|exact E]. eapply exact_nonneg; [apply (POS_srt ts POS)| |apply nonneg_repeat|exact HE].
    intros x Hx. destruct (deltas_spec fuel ts POS deltas' HD' NE) as [L [_ [_ [_ [_ [_ SP]]]]]]. apply SP in Hx. fold srt. rewrite (ts_dbf_perm srt ts x (sort_deadline_perm ts)). apply DO. lia.
Qed.
End Verdict.
