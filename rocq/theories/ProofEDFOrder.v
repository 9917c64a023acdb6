(** The verdicts of Baruah's test and of FF-DBF do not depend on the order of the
    tasks. *)
From Coq Require Import ZArith QArith Qround List Bool Lia Lqa Sorted Permutation.
From Verif Require Import Base ModelTasks SpecTasks ProofTasks SpecUni SpecQPA SpecGlobal ProofUni ProofEDF ProofGlobal ProofGFB ModelGEDF ProofGEDF
  ProofGEDFNative ProofGEDFOrder ProofBusy ProofBAK ModelBAR ProofBARTop ModelFFDBF ProofFFDBF ProofFFDBFSched ProofFFDBFTop.
Import ListNotations.
Open Scope Z_scope.

Lemma topsum_perm : forall A B (l : list A) (l' : list B) f f' n, Permutation (map f l) (map f' l') -> (topsum l f n == topsum l' f' n)%Q.
Proof.
  assert (G : forall A B (l : list A) (l' : list B) f f' n, Permutation (map f l) (map f' l') -> (topsum l f n <= topsum l' f' n)%Q).
  { intros A B l l' f f' n H. destruct (topsum_attained A l f n) as [sel [[S1 [rest S2]] S3]]. rewrite <- S3. apply topsum_upper.
    pose proof (Permutation_length H) as L. rewrite !map_length in L. rewrite <- L. split; [assumption|]. exists rest. rewrite S2. assumption. }
  intros. apply Qle_antisym; apply G; [|symmetry]; assumption.
Qed.

(** ** Baruah's test *)
Lemma map_indexed_split : forall B (F : bool -> task -> B) l1 t l2,
  map (fun p => F (Nat.eqb (fst p) (length l1)) (snd p)) (indexed (l1 ++ t :: l2)) = map (F false) l1 ++ F true t :: map (F false) l2.
Proof.
  intros B F l1 t l2. unfold indexed.
  assert (G : forall (l : taskset) a k, (k < a)%nat \/ (a + length l <= k)%nat -> map (fun p => F (Nat.eqb (fst p) k) (snd p)) (combine (seq a (length l)) l) = map (F false) l).
  { induction l as [|x l IH]; intros a k Hk; [reflexivity|]. cbn [length seq combine map fst snd] in *. rewrite (IH (S a) k) by lia.
    destruct (Nat.eqb_spec a k) as [->|]; [lia|reflexivity]. }
  assert (G2 : forall (l : taskset) a, map (fun p => F (Nat.eqb (fst p) (a + length l)) (snd p)) (combine (seq a (length (l ++ t :: l2))) (l ++ t :: l2)) = map (F false) l ++ F true t :: map (F false) l2).
  { induction l as [|x l IH]; intros a; cbn [app length seq combine map fst snd].
    - rewrite Nat.add_0_r, Nat.eqb_refl. f_equal. apply G. lia.
    - destruct (Nat.eqb_spec a (a + S (length l))); [lia|]. f_equal. rewrite <- (IH (S a)). replace (a + S (length l))%nat with (S a + length l)%nat by lia. reflexivity. }
  apply (G2 l1 0%nat).
Qed.

Lemma zsum_perm : forall l l', Permutation l l' -> zsum l = zsum l'.
Proof. unfold zsum. induction 1; cbn [fold_right]; lia. Qed.

Lemma bar_offset_perm : forall l1 t l2 l1' l2' a m, Permutation (l1 ++ l2) (l1' ++ l2') ->
  bar_offset (l1 ++ t :: l2) (length l1) t a m = bar_offset (l1' ++ t :: l2') (length l1') t a m.
Proof.
  intros l1 t l2 l1' l2' a m Hp.
  assert (P : forall B (F : bool -> task -> B), Permutation (map (fun p => F (Nat.eqb (fst p) (length l1)) (snd p)) (indexed (l1 ++ t :: l2)))
                                                            (map (fun p => F (Nat.eqb (fst p) (length l1')) (snd p)) (indexed (l1' ++ t :: l2')))).
  { intros B F. rewrite !map_indexed_split. rewrite <- !Permutation_middle. constructor. rewrite <- !map_app. apply Permutation_map. assumption. }
  unfold bar_offset. cbv zeta. apply Qle_bool_congr; [|reflexivity].
  rewrite (zsum_perm _ _ (P Z (fun b x => bar_I1 b x t a))). apply Qplus_comp; [reflexivity|]. apply topsum_perm. apply Permutation_map.
  apply (P Z (fun b x => bar_I2 b x t a - bar_I1 b x t a)).
Qed.

Lemma bar_bound_perm : forall ts ts' m t, Permutation ts ts' -> (bar_bound ts m t == bar_bound ts' m t)%Q.
Proof.
  intros ts ts' m t Hp. unfold bar_bound. cbv zeta.
  assert (U : (ts_utilization ts None == ts_utilization ts' None)%Q) by (unfold ts_utilization; apply qsum_perm, Permutation_map; assumption).
  assert (C : (topsum ts (fun t => inject_Z (t_cost t)) (Z.to_nat (m - 1)) == topsum ts' (fun t => inject_Z (t_cost t)) (Z.to_nat (m - 1)))%Q) by (apply topsum_perm, Permutation_map; assumption).
  assert (Y : (qsum (map (fun t => inject_Z (t_period t - t_deadline t) * utilization t) ts) == qsum (map (fun t => inject_Z (t_period t - t_deadline t) * utilization t) ts'))%Q)
    by (apply qsum_perm, Permutation_map; assumption).
  rewrite U, C, Y. reflexivity.
Qed.

(** a deadline of a task in [ts], at distance [x] after [offset] *)
Definition dpoint (ts : taskset) (offset x : Z) : Prop := exists t k, In t ts /\ 0 <= k /\ x = t_deadline t - offset + k * t_period t.

Lemma dpoint_perm : forall ts ts' o x, Permutation ts ts' -> dpoint ts o x -> dpoint ts' o x.
Proof. intros ts ts' o x H [t [k [A B]]]. exists t, k. split; [eapply Permutation_in; eassumption|assumption]. Qed.

Lemma ts_dbf_points_iff : forall fuel ts max_t offset l, Forall wf_task ts -> 0 < offset ->
  ts_dbf_points fuel ts max_t offset = Some l -> forall x, In x l <-> 0 <= x <= max_t /\ dpoint ts offset x.
Proof.
  intros fuel ts max_t offset l Hp Ho H x. unfold ts_dbf_points in H.
  destruct (sequence (map (fun t => dbf_points_of_change fuel t max_t offset) ts)) as [ls|] eqn:E; [|discriminate].
  cbn in H. injection H as <-. apply sequence_Forall2 in E.
  assert (Spec : forall t l, wf_task t -> dbf_points_of_change fuel t max_t offset = Some l ->
    StronglySorted Z.lt l /\ forall x, In x l <-> 0 <= x <= max_t /\ exists k, 0 <= k /\ x = t_deadline t - offset + k * t_period t).
  { intros t0 l0 [_ [_ H0]] H1. unfold dbf_points_of_change in H1. apply points_from_spec in H1; [assumption|lia|lia]. }
  assert (Hs : Forall (StronglySorted Z.le) ls).
  { clear - E Hp Spec. induction E as [|x y l l' H _ IH]; constructor; inversion Hp; subst; auto.
    apply ssorted_lt_le. eapply Spec; eassumption. }
  destruct (uniq_spec _ (merge_all_sorted _ Hs)) as [_ M1]. rewrite M1, merge_all_in. clear M1 Hs.
  induction E as [|t y l l' H _ IH].
  - split; [intros [l [[] _]]|intros [_ [t [k [[] _]]]]].
  - inversion Hp; subst. specialize (IH H3). split.
    + intros [l0 [[<-|A] B]].
      * apply (Spec _ _ H2 H) in B. destruct B as [B [k [K1 K2]]]. split; [assumption|]. exists t, k. split; [left; reflexivity|]. split; assumption.
      * destruct (proj1 IH (ex_intro _ l0 (conj A B))) as [R [t1 [k [K1 K2]]]]. split; [assumption|]. exists t1, k. split; [right; assumption|assumption].
    + intros [R [t1 [k [[<-|K1] K2]]]].
      * exists y. split; [left; reflexivity|]. apply (Spec _ _ H2 H). split; [assumption|]. exists k. assumption.
      * destruct (proj2 IH (conj R (ex_intro _ t1 (ex_intro _ k (conj K1 K2))))) as [l0 [A B]]. exists l0. split; [right; assumption|assumption].
Qed.

Definition bar_ok (m : Z) (ts : taskset) : Prop := forall l1 t l2, ts = l1 ++ t :: l2 -> forall a,
  0 <= a <= Qfloor (bar_bound ts m t) -> dpoint ts (t_deadline t) a -> bar_offset ts (length l1) t a m = true.

Lemma bar_ok_perm : forall m ts ts', Permutation ts ts' -> bar_ok m ts -> bar_ok m ts'.
Proof.
  intros m ts ts' Hp H l1 t l2 E a Ha Hd. subst ts'.
  assert (Hin : In t ts) by (eapply Permutation_in; [symmetry; exact Hp|]; apply in_elt).
  destruct (in_split _ _ Hin) as [k1 [k2 E]]. specialize (H k1 t k2 E a).
  rewrite (Qfloor_comp _ _ (bar_bound_perm _ _ m t Hp)) in H. specialize (H Ha (dpoint_perm _ _ _ _ (Permutation_sym Hp) Hd)).
  rewrite E in H. rewrite <- H. symmetry. apply bar_offset_perm. rewrite E in Hp. apply Permutation_app_inv in Hp. assumption.
Qed.

Lemma bar_loop_iff : forall fuel m ts r l1, Forall wf_task ts -> forall b, ts = l1 ++ r ->
  bar_loop fuel m ts (combine (seq (length l1) (length r)) r) = Some b ->
  b = true <-> (forall l2 t l3, r = l2 ++ t :: l3 -> forall a, 0 <= a <= Qfloor (bar_bound ts m t) -> dpoint ts (t_deadline t) a ->
                  bar_offset ts (length (l1 ++ l2)) t a m = true).
Proof.
  intros fuel m ts r. induction r as [|t0 r IH]; intros l1 Hw b E H; cbn [length seq combine bar_loop] in H.
  - injection H as <-. split; [|reflexivity]. intros _ l2 t l3 X. destruct l2; discriminate.
  - destruct (ts_dbf_points fuel ts (Qfloor (bar_bound ts m t0)) (t_deadline t0)) as [pts|] eqn:Ep; [|discriminate].
    assert (D0 : 0 < t_deadline t0) by (rewrite Forall_forall in Hw; destruct (Hw t0 ltac:(rewrite E; apply in_elt)); lia).
    pose proof (ts_dbf_points_iff _ _ _ _ _ Hw D0 Ep) as Hpts.
    destruct (forallb (fun a => bar_offset ts (length l1) t0 a m) pts) eqn:F.
    + rewrite forallb_forall in F. specialize (IH (l1 ++ [t0]) Hw b). rewrite app_length in IH. cbn [length] in IH. rewrite Nat.add_1_r in IH.
      assert (E2 : ts = (l1 ++ [t0]) ++ r) by (rewrite <- app_assoc; exact E). specialize (IH E2 H). rewrite IH. split.
      * intros X l2 t l3 E3 a Ha Hd. destruct l2 as [|y l2]; cbn [app] in E3; injection E3 as -> E3.
        -- subst l3. rewrite app_nil_r. apply F. apply Hpts. split; assumption.
        -- specialize (X l2 t l3 E3 a Ha Hd). rewrite <- app_assoc in X. exact X.
      * intros X l2 t l3 E3 a Ha Hd. rewrite <- app_assoc. cbn [app]. apply (X (t0 :: l2) t l3); [cbn; rewrite E3; reflexivity|assumption|assumption].
    + injection H as <-. split; [discriminate|]. intros X. exfalso. apply not_true_iff_false in F. apply F. apply forallb_forall. intros a Ha. apply Hpts in Ha. destruct Ha as [Ha Hd].
      specialize (X [] t0 r eq_refl a Ha Hd). rewrite app_nil_r in X. exact X.
Qed.

Lemma bar_perm : forall fuel fuel' m ts ts' b b', Forall wf_task ts -> Permutation ts ts' ->
  bar_test fuel m ts = Some b -> bar_test fuel' m ts' = Some b' -> b = b'.
Proof.
  intros fuel fuel' m ts ts' b b' Hw Hp H H'. unfold bar_test in *.
  assert (U : (ts_utilization ts None == ts_utilization ts' None)%Q) by (unfold ts_utilization; apply qsum_perm, Permutation_map; assumption).
  rewrite <- (Qle_bool_congr _ _ _ _ (Qeq_refl _) U), <- (forallb_perm _ _ _ _ Hp) in H'.
  destruct (_ || _); [congruence|].
  assert (Hw' : Forall wf_task ts') by (eapply Permutation_Forall; eassumption).
  apply eq_true_iff_eq. unfold indexed in *.
  rewrite (bar_loop_iff fuel m ts ts [] Hw b eq_refl H), (bar_loop_iff fuel' m ts' ts' [] Hw' b' eq_refl H'). cbn [app].
  split; intros X; [apply (bar_ok_perm m ts ts' Hp); exact X|apply (bar_ok_perm m ts' ts (Permutation_sym Hp)); exact X].
Qed.

(** ** FF-DBF *)
Lemma ffdbf_congr : forall t x x' s s', (x == x')%Q -> (s == s')%Q -> (ffdbf t x s == ffdbf t x' s')%Q.
Proof.
  intros t x x' s s' Hx Hs. unfold ffdbf. cbv zeta.
  assert (E : Qfloor (x / inject_Z (t_period t)) = Qfloor (x' / inject_Z (t_period t))) by (apply Qfloor_comp; rewrite Hx; reflexivity).
  rewrite E. set (q := Qfloor (x' / inject_Z (t_period t))).
  assert (R : (x - inject_Z q * inject_Z (t_period t) == x' - inject_Z q * inject_Z (t_period t))%Q) by (rewrite Hx; reflexivity).
  assert (V : (inject_Z (t_deadline t) - inject_Z (t_cost t) / s == inject_Z (t_deadline t) - inject_Z (t_cost t) / s')%Q) by (rewrite Hs; reflexivity).
  rewrite (Qle_bool_congr _ _ _ _ (Qeq_refl _) R), (Qle_bool_congr _ _ _ _ V R).
  destruct (Qle_bool _ _); [reflexivity|]. destruct (Qle_bool _ _); [|reflexivity]. rewrite Hs, R. reflexivity.
Qed.

Lemma ts_ffdbf_congr : forall ts ts' x x' s s', Permutation ts ts' -> (x == x')%Q -> (s == s')%Q -> (ts_ffdbf ts x s == ts_ffdbf ts' x' s')%Q.
Proof.
  intros ts ts' x x' s s' Hp Hx Hs. unfold ts_ffdbf. rewrite (qsum_perm _ _ (Permutation_map (fun t => ffdbf t x s) Hp)).
  apply qsum_ext. intros t _. apply ffdbf_congr; assumption.
Qed.

Lemma witness_congr : forall c ts ts' x x' s s', Permutation ts ts' -> (x == x')%Q -> (s == s')%Q -> witness_condition c ts x s = witness_condition c ts' x' s'.
Proof.
  intros c ts ts' x x' s s' Hp Hx Hs. unfold witness_condition. apply Qle_bool_congr; [apply ts_ffdbf_congr; assumption|]. rewrite Hx, Hs. reflexivity.
Qed.

Lemma first_failure_none : forall c ts s l, first_failure c ts s l = None -> forall x, In x l -> witness_condition c ts x s = true.
Proof. intros c ts s l H x Hx. pose proof (find_none _ _ H x Hx) as E. cbn in E. apply negb_false_iff in E. assumption. Qed.

Lemma first_failure_some : forall c ts s l t, qsorted l -> first_failure c ts s l = Some t ->
  In t l /\ witness_condition c ts t s = false /\ forall x, In x l -> witness_condition c ts x s = false -> (t <= x)%Q.
Proof.
  intros c ts s l t Hs H. unfold first_failure in *. destruct (find_some _ _ H) as [A B]. apply negb_true_iff in B. split; [assumption|]. split; [assumption|].
  clear A B. induction Hs as [|y l Hl IH Hf]; [discriminate|]. intros x Hx Hw. cbn [find] in H. destruct (witness_condition c ts y s) eqn:E; cbn [negb] in H.
  - destruct Hx as [<-|Hx]; [congruence|]. apply IH; assumption.
  - injection H as <-. destruct Hx as [<-|Hx]; [apply Qle_refl|]. rewrite Forall_forall in Hf. auto.
Qed.

Definition qsub (l l' : list Q) : Prop := forall x, In x l -> exists y, In y l' /\ (x == y)%Q.

Lemma first_failure_congr : forall c ts ts' s s' l l', Permutation ts ts' -> (s == s')%Q -> qsorted l -> qsorted l' -> qsub l l' -> qsub l' l ->
  match first_failure c ts s l, first_failure c ts' s' l' with
  | Some t, Some t' => (t == t')%Q
  | None, None => True
  | _, _ => False
  end.
Proof.
  intros c ts ts' s s' l l' Hp Hs Sl Sl' H1 H2. destruct (first_failure c ts s l) as [t|] eqn:E; destruct (first_failure c ts' s' l') as [t'|] eqn:E'.
  - destruct (first_failure_some _ _ _ _ _ Sl E) as [A [B C]]. destruct (first_failure_some _ _ _ _ _ Sl' E') as [A' [B' C']].
    destruct (H1 t A) as [y [Y1 Y2]]. destruct (H2 t' A') as [z [Z1 Z2]]. apply Qle_antisym.
    + rewrite Z2. apply C; [assumption|]. rewrite <- B'. apply witness_congr; [assumption|symmetry; assumption|assumption].
    + rewrite Y2. apply C'; [assumption|]. rewrite <- B. symmetry. apply witness_congr; assumption.
  - destruct (first_failure_some _ _ _ _ _ Sl E) as [A [B C]]. destruct (H1 t A) as [y [Y1 Y2]]. pose proof (first_failure_none _ _ _ _ E' y Y1) as X.
    rewrite <- (witness_congr c ts ts' t y s s' Hp Y2 Hs) in X. congruence.
  - destruct (first_failure_some _ _ _ _ _ Sl' E') as [A [B C]]. destruct (H2 t' A) as [y [Y1 Y2]]. pose proof (first_failure_none _ _ _ _ E y Y1) as X.
    rewrite (witness_congr c ts ts' y t' s s' Hp (Qeq_sym _ _ Y2) Hs) in X. congruence.
  - exact I.
Qed.

Lemma points_beyond_congr : forall fuel fuel' time p o o' b b' l l', (o == o')%Q -> (b == b')%Q ->
  points_beyond fuel time p o b = Some l -> points_beyond fuel' time p o' b' = Some l' -> Forall2 Qeq l l'.
Proof.
  induction fuel as [|f IH]; intros fuel' time p o o' b b' l l' Ho Hb H H'; [discriminate|]. destruct fuel' as [|f']; [discriminate|]. cbn [points_beyond] in *.
  assert (E : (inject_Z time - o == inject_Z time - o')%Q) by (rewrite Ho; reflexivity).
  rewrite <- (Qle_bool_congr _ _ _ _ E Hb), <- (Qle_bool_congr _ _ _ _ (Qeq_refl (inject_Z time)) Hb) in H'.
  destruct (Qle_bool (inject_Z time - o) b); [|injection H as <-; injection H' as <-; constructor].
  destruct (points_beyond f (time + p) p o b) as [r|] eqn:Er; [|discriminate]. destruct (points_beyond f' (time + p) p o' b') as [r'|] eqn:Er'; [|discriminate].
  cbn [option_map] in *. injection H as <-. injection H' as <-. constructor; [assumption|]. apply (Forall2_app (R := Qeq)); [|exact (IH _ _ _ _ _ _ _ _ _ Ho Hb Er Er')].
  destruct (Qle_bool (inject_Z time) b); repeat constructor.
Qed.

Lemma min_q_congr : forall a b a' b', (a == a')%Q -> (b == b')%Q -> (min_q a b == min_q a' b')%Q.
Proof. intros a b a' b' Ha Hb. unfold min_q. rewrite <- (Qle_bool_congr _ _ _ _ Ha Hb). destruct (negb _); assumption. Qed.

Lemma test_points_congr : forall fuel fuel' t s s' a a' b b' l l', (s == s')%Q -> (a == a')%Q -> (b == b')%Q ->
  test_points fuel t s a b = Some l -> test_points fuel' t s' a' b' = Some l' -> Forall2 Qeq l l'.
Proof.
  intros fuel fuel' t s s' a a' b b' l l' Hs Ha Hb H H'. unfold test_points in *.
  assert (F : Qfloor (a / inject_Z (t_period t)) = Qfloor (a' / inject_Z (t_period t))) by (apply Qfloor_comp; rewrite Ha; reflexivity).
  rewrite <- F in H'. clear F. set (time := Qfloor (a / inject_Z (t_period t)) * t_period t + t_deadline t) in *.
  assert (O : (min_q (inject_Z (t_cost t) / s) (inject_Z (t_deadline t)) == min_q (inject_Z (t_cost t) / s') (inject_Z (t_deadline t)))%Q)
    by (apply min_q_congr; [rewrite Hs|]; reflexivity).
  set (o := min_q (inject_Z (t_cost t) / s) (inject_Z (t_deadline t))) in *. set (o' := min_q (inject_Z (t_cost t) / s') (inject_Z (t_deadline t))) in *. cbv zeta in *.
  destruct (points_beyond fuel (time + t_period t) (t_period t) o b) as [r|] eqn:Er; [|discriminate].
  destruct (points_beyond fuel' (time + t_period t) (t_period t) o' b') as [r'|] eqn:Er'; [|discriminate].
  cbn [option_map] in *. injection H as <-. injection H' as <-. apply Forall2_app; [|exact (points_beyond_congr _ _ _ _ _ _ _ _ _ _ O Hb Er Er')].
  assert (E : (inject_Z time - o == inject_Z time - o')%Q) by (rewrite O; reflexivity). cbn [filter].
  rewrite <- (Qle_bool_congr _ _ _ _ E Ha), <- (Qle_bool_congr _ _ _ _ E Hb), <- (Qle_bool_congr _ _ _ _ (Qeq_refl (inject_Z time)) Ha), <- (Qle_bool_congr _ _ _ _ (Qeq_refl (inject_Z time)) Hb).
  destruct (negb _ && _); destruct (negb _ && _); repeat constructor; assumption.
Qed.

Lemma Forall2_in : forall A B (R : A -> B -> Prop) l l' x, Forall2 R l l' -> In x l -> exists y, In y l' /\ R x y.
Proof. induction 1; intros H1; [destruct H1|]. destruct H1 as [<-|H1]; [exists y; split; [left; reflexivity|assumption]|]. destruct (IHForall2 H1) as [z [A1 A2]]. exists z. split; [right; assumption|assumption]. Qed.

Lemma testing_set_in : forall fuel ts s a b l x, testing_set fuel ts s a b = Some l -> In x l ->
  exists t l0, In t ts /\ test_points fuel t s a b = Some l0 /\ In x l0.
Proof.
  intros fuel ts s a b l x H Hx. unfold testing_set in H.
  destruct (sequence (map (fun t => test_points fuel t s a b) ts)) as [ls|] eqn:E; [|discriminate]. cbn in H. injection H as <-.
  apply sequence_Forall2 in E. apply quniq_incl, qmerge_in in Hx. destruct Hx as [l0 [A B]].
  induction E as [|t y l l' H _ IH]; [destruct A|]. destruct A as [<-|A].
  - exists t, y. split; [left; reflexivity|]. split; assumption.
  - destruct (IH A) as [t1 [l1 [C D]]]. exists t1, l1. split; [right; assumption|assumption].
Qed.

Lemma testing_set_has : forall fuel ts s a b l t, testing_set fuel ts s a b = Some l -> In t ts ->
  exists l0, test_points fuel t s a b = Some l0 /\ qsub l0 l.
Proof.
  intros fuel ts s a b l t H Ht. unfold testing_set in H.
  destruct (sequence (map (fun t => test_points fuel t s a b) ts)) as [ls|] eqn:E; [|discriminate]. cbn in H. injection H as <-.
  apply sequence_Forall2 in E. destruct (Forall2_in _ _ _ _ _ _ E Ht) as [l0 [A B]]. exists l0. split; [assumption|]. intros x Hx.
  destruct (quniq_complete (fold_right qmerge2 [] ls) x) as [y [Y1 Y2]]; [apply qmerge_in; exists l0; split; assumption|].
  exists y. split; [assumption|symmetry; assumption].
Qed.

Lemma testing_set_sub : forall fuel fuel' ts ts' s s' a a' b b' l l', Permutation ts ts' -> (s == s')%Q -> (a == a')%Q -> (b == b')%Q ->
  testing_set fuel ts s a b = Some l -> testing_set fuel' ts' s' a' b' = Some l' -> qsub l l'.
Proof.
  intros fuel fuel' ts ts' s s' a a' b b' l l' Hp Hs Ha Hb H H' x Hx.
  destruct (testing_set_in _ _ _ _ _ _ _ H Hx) as [t [l0 [Ht [E I]]]].
  destruct (testing_set_has _ _ _ _ _ _ t H' ltac:(eapply Permutation_in; eassumption)) as [l0' [E' S]].
  destruct (Forall2_in _ _ _ _ _ _ (test_points_congr _ _ _ _ _ _ _ _ _ _ _ Hs Ha Hb E E') I) as [y [Y1 Y2]].
  destruct (S y Y1) as [z [Z1 Z2]]. exists z. split; [assumption|]. rewrite Y2. assumption.
Qed.

Lemma sigma_congr : forall d d' step n, (d == d')%Q -> (sigma_at d step n == sigma_at d' step n)%Q.
Proof.
  intros d d' step [|n] H; [exact H|]. unfold sigma_at. assert (E : Qfloor (d / step) = Qfloor (d' / step)) by (apply Qfloor_comp; rewrite H; reflexivity). rewrite E. reflexivity.
Qed.

Lemma next_sigma_congr : forall fuel fuel' c ts ts' d d' step b b' t t' n r r', Permutation ts ts' -> (d == d')%Q -> (b == b')%Q -> (t == t')%Q ->
  next_sigma fuel c ts d step b t n = Some r -> next_sigma fuel' c ts' d' step b' t' n = Some r' -> r = r'.
Proof.
  induction fuel as [|f IH]; intros fuel' c ts ts' d d' step b b' t t' n r r' Hp Hd Hb Ht H H'; [discriminate|]. destruct fuel' as [|f']; [discriminate|].
  cbn [next_sigma] in *. pose proof (sigma_congr d d' step (S n) Hd) as E.
  rewrite <- (Qle_bool_congr _ _ _ _ Hd E), <- (Qle_bool_congr _ _ _ _ E Hb), <- (witness_congr c ts ts' t t' _ _ Hp Ht E) in H'.
  destruct (_ && _); [|congruence]. destruct (witness_condition _ _ _ _); [congruence|]. exact (IH _ _ _ _ _ _ _ _ _ _ _ _ _ _ Hp Hd Hb Ht H H').
Qed.

Lemma ffdbf_loop_congr : forall fuel fuel' pf pf' c ts ts' d d' step sb sb' tb tb' n a a' r r', Forall ok_task ts -> Permutation ts ts' -> (0 <= d)%Q -> (0 <= a)%Q ->
  (d == d')%Q -> (sb == sb')%Q -> (tb == tb')%Q -> (a == a')%Q ->
  ffdbf_loop fuel pf c ts d step sb tb n a = Some r -> ffdbf_loop fuel' pf' c ts' d' step sb' tb' n a' = Some r' -> r = r'.
Proof.
  induction fuel as [|f IH]; intros fuel' pf pf' c ts ts' d d' step sb sb' tb tb' n a a' r r' Ho Hp D0 A0 Hd Hsb Htb Ha H H'; [discriminate|].
  destruct fuel' as [|f']; [discriminate|]. cbn [ffdbf_loop] in *. pose proof (sigma_congr d d' step n Hd) as E.
  rewrite <- (Qle_bool_congr _ _ _ _ Hd E), <- (Qle_bool_congr _ _ _ _ E Hsb), <- (Qeq_bool_congr _ _ _ _ E (Qeq_refl 0)) in H'.
  destruct (Qle_bool d (sigma_at d step n) && Qle_bool (sigma_at d step n) sb) eqn:G; cbn [negb] in *; [|congruence]. apply andb_prop in G. destruct G as [G _]. apply Qle_bool_iff in G.
  destruct (Qeq_bool (sigma_at d step n) 0) eqn:Z; [discriminate|]. apply Qeq_bool_neq in Z.
  assert (S0 : (0 < sigma_at d step n)%Q) by (apply Qnot_le_lt; intros X; apply Z; apply Qle_antisym; [assumption|lra]).
  destruct (testing_set pf ts _ a tb) as [l|] eqn:T; [|discriminate]. destruct (testing_set pf' ts' _ a' tb') as [l'|] eqn:T'; [|discriminate].
  destruct (testing_set_spec _ _ _ _ _ _ Ho S0 A0 T) as [Sl [Bl _]].
  assert (Ho' : Forall ok_task ts') by (eapply Permutation_Forall; eassumption). assert (S0' : (0 < sigma_at d' step n)%Q) by lra. assert (A0' : (0 <= a')%Q) by lra.
  destruct (testing_set_spec _ _ _ _ _ _ Ho' S0' A0' T') as [Sl' _].
  pose proof (first_failure_congr c ts ts' _ _ l l' Hp E Sl Sl' (testing_set_sub _ _ _ _ _ _ _ _ _ _ _ _ Hp E Ha Htb T T')
    (testing_set_sub _ _ _ _ _ _ _ _ _ _ _ _ (Permutation_sym Hp) (Qeq_sym _ _ E) (Qeq_sym _ _ Ha) (Qeq_sym _ _ Htb) T' T)) as F.
  destruct (first_failure c ts _ l) as [t|] eqn:E1; destruct (first_failure c ts' _ l') as [t'|] eqn:E1'; try contradiction; [|congruence].
  destruct (next_sigma f c ts d step sb t n) as [x|] eqn:N1; [|discriminate]. destruct (next_sigma f' c ts' d' step sb' t' n) as [x'|] eqn:N2; [|discriminate].
  pose proof (next_sigma_congr _ _ _ _ _ _ _ _ _ _ _ _ _ _ _ Hp Hd Hsb F N1 N2) as X. subst x'. destruct x as [n'|]; [|congruence].
  destruct (first_failure_some _ _ _ _ _ Sl E1) as [I _]. rewrite Forall_forall in Bl. destruct (Bl t I) as [L _].
  assert (T0 : (0 <= t)%Q) by lra.
  exact (IH _ _ _ _ _ _ _ _ _ _ _ _ _ _ _ _ _ _ Ho Hp D0 T0 Hd Hsb Htb F H H').
Qed.

Lemma density_nonneg : forall t, ok_task t -> (0 <= density t)%Q.
Proof.
  intros t [A B]. unfold density, zdivq. apply Qle_shift_div_l; [change 0%Q with (inject_Z 0); rewrite <- Zlt_Qlt; lia|]. rewrite Qmult_0_l. change 0%Q with (inject_Z 0). rewrite <- Zle_Qle. assumption.
Qed.

Lemma ffdbf_perm : forall fuel fuel' pf pf' eps g c ts ts' b b', Forall ok_task ts -> Permutation ts ts' ->
  ffdbf_test fuel pf eps g c ts = Some b -> ffdbf_test fuel' pf' eps g c ts' = Some b' -> b = b'.
Proof.
  intros fuel fuel' pf pf' eps g c ts ts' b b' Ho Hp H H'. unfold ffdbf_test in *. destruct ts as [|t r]; destruct ts' as [|t' r'].
  - congruence.
  - apply Permutation_nil_cons in Hp. contradiction.
  - symmetry in Hp. apply Permutation_nil_cons in Hp. contradiction.
  - destruct (c <? 2); [congruence|].
    assert (U : (ts_utilization (t :: r) None == ts_utilization (t' :: r') None)%Q) by (unfold ts_utilization; apply qsum_perm, Permutation_map; assumption).
    assert (M : (max_density t r == max_density t' r')%Q).
    { unfold max_density. apply max_list_perm. change (Permutation (map density (t :: r)) (map density (t' :: r'))). apply Permutation_map. assumption. }
    assert (M0 : (0 <= max_density t r)%Q).
    { unfold max_density. destruct (max_list_spec (map density r) (density t)) as [A _]. eapply Qle_trans; [|exact A]. apply density_nonneg. inversion Ho; assumption. }
    refine (ffdbf_loop_congr _ _ _ _ _ _ _ _ _ _ _ _ _ _ _ _ _ _ _ Ho Hp M0 (Qle_refl 0) M _ _ (Qeq_refl 0) H H').
    + apply min_q_congr; [reflexivity|]. rewrite U. reflexivity.
    + rewrite (zsum_perm _ _ (Permutation_map t_cost Hp)). reflexivity.
Qed.
