(** Lemmas for C27. *)
From Coq Require Import ZArith QArith Lqa List Bool Lia Arith.
From Verif Require Import ModelPwl SpecPwl.
Import ListNotations.
Open Scope Q_scope.

Lemma qle_bool_false : forall a b, Qle_bool a b = false <-> b < a.
Proof.
  intros a b. split; intros H.
  - apply Qnot_le_lt. intros C. apply Qle_bool_iff in C. congruence.
  - apply not_true_iff_false. intros C. apply Qle_bool_iff in C. apply Qlt_not_le in H. contradiction.
Qed.

Lemma py_max_ge_l : forall a b, a <= py_max a b.
Proof. intros a b. unfold py_max. destruct (Qle_bool b a) eqn:E; cbn [negb]; [apply Qle_refl|apply qle_bool_false in E; lra]. Qed.
Lemma py_max_ge_r : forall a b, b <= py_max a b.
Proof. intros a b. unfold py_max. destruct (Qle_bool b a) eqn:E; cbn [negb]; [apply Qle_bool_iff; assumption|apply Qle_refl]. Qed.
Lemma py_max_cases : forall a b, py_max a b = a \/ py_max a b = b.
Proof. intros a b. unfold py_max. destruct (Qle_bool b a); auto. Qed.
Lemma py_max_mono : forall a x y, x <= y -> py_max a x <= py_max a y.
Proof. intros a x y H. destruct (py_max_cases a x) as [->| ->]; [apply py_max_ge_l|eapply Qle_trans; [exact H|apply py_max_ge_r]]. Qed.
Lemma py_max_eq : forall a x y, x == y -> py_max a x == py_max a y.
Proof. intros a x y H. apply Qle_antisym; apply py_max_mono; rewrite H; apply Qle_refl. Qed.
Lemma py_max_r : forall a b, a <= b -> py_max a b == b.
Proof. intros a b H. unfold py_max. destruct (Qle_bool b a) eqn:E; cbn [negb]; [apply Qle_bool_iff in E; lra|reflexivity]. Qed.

(** ** Evaluation along the points *)
Definition line (p q : point) (x : Q) : Q := snd p + slope p q * (x - fst p).

Fixpoint peval (p : point) (r : list point) (x : Q) : Q :=
  match r with
  | [] => snd p
  | q :: r' => match r' with
               | [] => line p q x
               | _ :: _ => if Qle_bool x (fst q) then line p q x else peval q r' x
               end
  end.
Definition pev (l : list point) (x : Q) : Q := match l with [] => 0 | p :: r => peval p r x end.

Fixpoint sortedx (x : Q) (r : list point) : Prop := match r with [] => True | q :: r' => x < fst q /\ sortedx (fst q) r' end.
Fixpoint monoy (y : Q) (r : list point) : Prop := match r with [] => True | q :: r' => y <= snd q /\ monoy (snd q) r' end.

Lemma linear_call_line : forall p q x, linear_call (Linear (yintercept p q) (slope p q)) x == line p q x.
Proof.
  intros p q x. unfold linear_call, yintercept, line. cbn [l_a l_b]. destruct (Qeq_bool (slope p q) 0) eqn:E.
  - apply Qeq_bool_iff in E. rewrite E. ring.
  - ring.
Qed.

Lemma pwl_peval : forall r p q x, pwl_call (p :: q :: r) x == py_max 0 (peval p (q :: r) x).
Proof.
  intros r p q x. unfold pwl_call. apply py_max_eq. unfold lookup. cbn [tl map length]. rewrite Nat.sub_succ, Nat.sub_0_r, map_length.
  revert p q. induction r as [|s r IH]; intros p q.
  - cbn [length find_index segments nth peval]. apply linear_call_line.
  - cbn [length find_index map]. cbn [peval]. destruct (Qle_bool x (fst q)).
    + cbn [segments nth]. apply linear_call_line.
    + change (segments (p :: q :: s :: r)) with (Linear (yintercept p q) (slope p q) :: segments (q :: s :: r)). cbn [nth]. apply IH.
Qed.

Lemma slope_eq : forall p q, fst p < fst q -> slope p q * (fst q - fst p) == snd q - snd p.
Proof.
  intros p q H. unfold slope. destruct (Qeq_bool (fst q - fst p) 0) eqn:E; cbn [negb].
  - apply Qeq_bool_iff in E. lra.
  - field. lra.
Qed.
Lemma slope_nonneg : forall p q, fst p < fst q -> snd p <= snd q -> 0 <= slope p q.
Proof.
  intros p q H1 H2. pose proof (slope_eq p q H1) as S. destruct (Qlt_le_dec (slope p q) 0) as [C|C]; [|assumption].
  assert (slope p q * (fst q - fst p) < 0); [|lra].
  assert (0 < (- slope p q) * (fst q - fst p)) by (apply Qmult_lt_0_compat; lra). lra.
Qed.
Lemma slope_flat : forall p q, snd p == snd q -> slope p q == 0.
Proof.
  intros p q H. unfold slope. destruct (Qeq_bool (fst q - fst p) 0) eqn:E; cbn [negb]; [reflexivity|].
  setoid_replace (snd q - snd p) with 0 by lra. unfold Qdiv. ring.
Qed.
Lemma line_flat : forall p q x, snd p == snd q -> line p q x == snd p.
Proof. intros p q x H. unfold line. rewrite slope_flat by assumption. ring. Qed.
Lemma line_left : forall p q, line p q (fst p) == snd p.
Proof. intros. unfold line. ring. Qed.
Lemma line_right : forall p q, fst p < fst q -> line p q (fst q) == snd q.
Proof. intros p q H. unfold line. rewrite slope_eq by assumption. ring. Qed.
Lemma line_mono : forall p q x y, fst p < fst q -> snd p <= snd q -> x <= y -> line p q x <= line p q y.
Proof.
  intros p q x y H1 H2 H. unfold line. pose proof (slope_nonneg p q H1 H2) as S.
  assert (slope p q * (x - fst p) <= slope p q * (y - fst p)); [|lra].
  rewrite !(Qmult_comm (slope p q)). apply Qmult_le_compat_r; lra.
Qed.
Lemma line_proper : forall p q x y, x == y -> line p q x == line p q y.
Proof. intros p q x y H. unfold line. rewrite H. reflexivity. Qed.

Lemma peval_proper : forall r p x y, x == y -> peval p r x == peval p r y.
Proof.
  induction r as [|q r IH]; intros p x y H; cbn [peval]; [reflexivity|]. destruct r as [|s r]; [apply line_proper; assumption|].
  assert (E : Qle_bool x (fst q) = Qle_bool y (fst q)) by (apply eq_true_iff_eq; rewrite !Qle_bool_iff, H; reflexivity).
  rewrite E. destruct (Qle_bool y (fst q)); [apply line_proper; assumption|apply IH; assumption].
Qed.

Lemma peval_left : forall r p, sortedx (fst p) r -> peval p r (fst p) == snd p.
Proof.
  intros [|q r] p H; cbn [peval]; [reflexivity|]. destruct r as [|s r]; [apply line_left|].
  destruct H as [H _]. destruct (Qle_bool (fst p) (fst q)) eqn:E; [apply line_left|apply qle_bool_false in E; lra].
Qed.

(** beyond the second point the first is irrelevant *)
Lemma peval_skip : forall r p q s x, sortedx (fst p) (q :: s :: r) -> fst q <= x -> peval p (q :: s :: r) x == peval q (s :: r) x.
Proof.
  intros r p q s x [H1 H2] Hx. change (peval p (q :: s :: r) x) with (if Qle_bool x (fst q) then line p q x else peval q (s :: r) x).
  destruct (Qle_bool x (fst q)) eqn:E; [|reflexivity]. apply Qle_bool_iff in E.
  assert (X : x == fst q) by lra. rewrite (line_proper _ _ _ _ X), (peval_proper _ _ _ _ X), line_right, peval_left by assumption. reflexivity.
Qed.

Lemma peval_mono : forall r p x y, sortedx (fst p) r -> monoy (snd p) r -> x <= y -> peval p r x <= peval p r y.
Proof.
  induction r as [|q r IH]; intros p x y Hs Hm H; [apply Qle_refl|]. destruct Hs as [S1 S2]. destruct Hm as [M1 M2].
  destruct r as [|s r]; [cbn [peval]; apply line_mono; assumption|].
  destruct (Qlt_le_dec (fst q) y) as [C|C].
  - rewrite (peval_skip r p q s y) by (cbn [sortedx] in *; tauto || lra). destruct (Qlt_le_dec (fst q) x) as [D|D].
    + rewrite (peval_skip r p q s x) by (cbn [sortedx] in *; tauto || lra). apply IH; assumption.
    + apply Qle_trans with (snd q).
      * change (peval p (q :: s :: r) x) with (if Qle_bool x (fst q) then line p q x else peval q (s :: r) x).
        apply Qle_bool_iff in D. rewrite D. apply Qle_bool_iff in D. rewrite <- (line_right p q S1). apply line_mono; assumption.
      * rewrite <- (peval_left (s :: r) q S2). apply IH; [assumption|assumption|lra].
  - change (peval p (q :: s :: r) x) with (if Qle_bool x (fst q) then line p q x else peval q (s :: r) x).
    change (peval p (q :: s :: r) y) with (if Qle_bool y (fst q) then line p q y else peval q (s :: r) y).
    assert (E1 : Qle_bool x (fst q) = true) by (apply Qle_bool_iff; lra). assert (E2 : Qle_bool y (fst q) = true) by (apply Qle_bool_iff; lra).
    rewrite E1, E2. apply line_mono; assumption.
Qed.

Lemma sortedx_nth : forall l x i p, sortedx x l -> nth_error l i = Some p -> x < fst p.
Proof.
  induction l as [|q l IH]; intros x i p H E; [destruct i; discriminate|]. destruct H as [H1 H2]. destruct i; cbn in E.
  - injection E as <-. assumption.
  - specialize (IH _ _ _ H2 E). lra.
Qed.

Lemma peval_segment : forall r p i a b x, sortedx (fst p) r -> nth_error (p :: r) i = Some a -> nth_error (p :: r) (S i) = Some b ->
  fst a <= x -> x <= fst b -> peval p r x == line a b x.
Proof.
  induction r as [|q r IH]; intros p i a b x Hs Ha Hb H1 H2; [destruct i as [|[|]]; discriminate|].
  destruct i.
  - cbn in Ha, Hb. injection Ha as <-. injection Hb as <-. cbn [peval]. destruct r; [reflexivity|].
    apply Qle_bool_iff in H2. rewrite H2. reflexivity.
  - cbn [nth_error] in Ha, Hb. destruct r as [|s r]; [destruct i as [|[|]]; discriminate|].
    rewrite peval_skip; [|assumption|].
    + destruct Hs as [_ Hs]. eapply IH; eassumption.
    + destruct Hs as [_ Hs]. destruct i; cbn [nth_error] in Ha; [injection Ha as <-; assumption|].
      pose proof (sortedx_nth _ _ _ _ Hs Ha). lra.
Qed.

(** ** Removing a redundant point *)
Lemma peval_remove : forall A p q r R x, snd p == snd q -> snd q == snd r -> fst q < fst r ->
  pev (A ++ p :: q :: r :: R) x == pev (A ++ p :: r :: R) x.
Proof.
  intros A p q r R x H1 H2 H3.
  assert (B : peval p (q :: r :: R) x == peval p (r :: R) x).
  { change (peval p (q :: r :: R) x) with (if Qle_bool x (fst q) then line p q x else peval q (r :: R) x).
    assert (E1 : line p q x == snd p) by (apply line_flat; assumption). assert (E2 : line p r x == snd p) by (apply line_flat; lra).
    assert (E3 : line q r x == snd p) by (rewrite line_flat; lra).
    destruct R as [|s R]; cbn [peval].
    - destruct (Qle_bool x (fst q)); lra.
    - destruct (Qle_bool x (fst q)) eqn:E; destruct (Qle_bool x (fst r)) eqn:F; try reflexivity; try (lra).
      apply Qle_bool_iff in E. apply qle_bool_false in F. lra. }
  induction A as [|a A IH]; [exact B|]. cbn [app pev] in *.
  assert (G : forall c, peval c (p :: q :: r :: R) x == peval c (p :: r :: R) x).
  { intros c. change (peval c (p :: q :: r :: R) x) with (if Qle_bool x (fst p) then line c p x else peval p (q :: r :: R) x).
    change (peval c (p :: r :: R) x) with (if Qle_bool x (fst p) then line c p x else peval p (r :: R) x).
    destruct (Qle_bool x (fst p)); [reflexivity|exact B]. }
  clear IH. revert a. induction A as [|a' A IH]; intros a; cbn [app]; [apply G|].
  destruct A as [|b A]; cbn [app] in *.
  - change (peval a (a' :: p :: q :: r :: R) x) with (if Qle_bool x (fst a') then line a a' x else peval a' (p :: q :: r :: R) x).
    change (peval a (a' :: p :: r :: R) x) with (if Qle_bool x (fst a') then line a a' x else peval a' (p :: r :: R) x).
    destruct (Qle_bool x (fst a')); [reflexivity|apply IH].
  - cbn [peval]. cbn [peval] in IH. destruct (Qle_bool x (fst a')); [reflexivity|apply IH].
Qed.

(** ** The running maxima *)
Fixpoint runmax (prev : Q) (pts : list point) : list point :=
  match pts with [] => [] | p :: r => (fst p, py_max prev (snd p)) :: runmax (py_max prev (snd p)) r end.

Lemma mono_fold : forall r S pp prev top S' pp' prev' x, hd_error S = Some top -> snd top = prev -> sortedx (fst top) r ->
  (forall v, pp = Some v -> exists below S2, S = top :: below :: S2 /\ snd below == v /\ v <= prev) ->
  fold_left mono_step r (S, pp, prev) = (S', pp', prev') -> pev (rev S') x == pev (rev S ++ runmax prev r) x.
Proof.
  induction r as [|p r IH]; intros S pp prev top S' pp' prev' x Ht Hp Hs Hpp H.
  - cbn in H. injection H as <- <- <-. cbn [runmax]. rewrite app_nil_r. reflexivity.
  - cbn [fold_left] in H. destruct S as [|t S0]; [discriminate|]. cbn in Ht. injection Ht as ->. destruct Hs as [Hs1 Hs2].
    cbn [runmax]. set (y := py_max prev (snd p)) in *. unfold mono_step in H at 2. cbn [fst snd] in H. fold y in H.
    assert (Hy : prev <= y) by apply py_max_ge_l.
    destruct pp as [v|].
    + destruct (Hpp v eq_refl) as [below [S2 [E [E1 E2]]]]. injection E as ->. destruct (Qeq_bool v y) eqn:Q.
      * apply Qeq_bool_iff in Q. cbn [tl] in H. rewrite (IH _ _ _ (fst p, y) _ _ _ x) with (5 := H); [|reflexivity|reflexivity|exact Hs2|].
        -- cbn [rev]. rewrite <- !app_assoc. cbn [app]. symmetry. apply peval_remove; cbn [fst snd]; [subst; lra|subst; lra|assumption].
        -- intros w Ew. injection Ew as <-. exists below, S2. split; [reflexivity|]. split; lra.
      * rewrite (IH _ _ _ (fst p, y) _ _ _ x) with (5 := H); [|reflexivity|reflexivity|exact Hs2|].
        -- cbn [rev]. rewrite <- !app_assoc. reflexivity.
        -- intros w Ew. injection Ew as <-. exists top, (below :: S2). split; [reflexivity|]. rewrite Hp. split; [reflexivity|assumption].
    + rewrite (IH _ _ _ (fst p, y) _ _ _ x) with (5 := H); [|reflexivity|reflexivity|exact Hs2|].
      * cbn [rev]. rewrite <- !app_assoc. reflexivity.
      * intros w Ew. injection Ew as <-. exists top, S0. split; [reflexivity|]. rewrite Hp. split; [reflexivity|assumption].
Qed.

Lemma runmax_sorted : forall r x y, sortedx x r -> sortedx x (runmax y r).
Proof. induction r as [|p r IH]; intros x y H; [exact I|]. destruct H as [H1 H2]. cbn. split; [assumption|apply IH; assumption]. Qed.
Lemma runmax_mono : forall r y, monoy y (runmax y r).
Proof. induction r as [|p r IH]; intros y; [exact I|]. cbn. split; [apply py_max_ge_l|apply IH]. Qed.

Lemma fold_nonempty : forall r S pp prev S' pp' prev', S <> [] -> fold_left mono_step r (S, pp, prev) = (S', pp', prev') -> S' <> [].
Proof.
  induction r as [|p r IH]; intros S pp prev S' pp' prev' HS H; cbn [fold_left] in H; [injection H as <- <- <-; assumption|].
  unfold mono_step in H at 2. eapply IH; [|exact H]. discriminate.
Qed.

(** the function is the piece-wise linear one through the running maxima *)
Lemma call_pev : forall p r f x, sortedx (fst p) r -> monotonic_pwlin (p :: r) = Some f ->
  overhead_call f x == pev (p :: runmax (snd p) r) x \/ overhead_call f x == py_max 0 (pev (p :: runmax (snd p) r) x).
Proof.
  intros p r f x Hs H. unfold monotonic_pwlin, make_monotonic in H.
  match type of H with context [fold_left mono_step r ?c] => destruct (fold_left mono_step r c) as [[S pp] prev] eqn:E end.
  assert (NE : S <> []) by (eapply fold_nonempty; [|exact E]; discriminate).
  assert (NN : forall v : Q, None = Some v -> exists below S2, [p] = p :: below :: S2 /\ snd below == v /\ v <= snd p) by discriminate.
  apply (mono_fold r [p] None (snd p) p S pp prev x eq_refl eq_refl Hs NN) in E.
  change (rev [p] ++ runmax (snd p) r) with (p :: runmax (snd p) r) in E.
  assert (C : forall v, linear_call (const v) x == v) by (intros; unfold linear_call, const; cbn; ring).
  destruct S as [|a S]; [congruence|]. destruct S as [|b S].
  - cbn in H. injection H as <-. left. cbn [overhead_call]. rewrite C, <- E. reflexivity.
  - destruct S as [|c S].
    + destruct (Qeq_bool (snd a) (snd b)) eqn:Q.
      * cbn in H. injection H as <-. left. cbn [overhead_call]. rewrite C, <- E. cbn [rev app pev peval]. apply Qeq_bool_iff in Q.
        rewrite line_flat by (symmetry; assumption). reflexivity.
      * cbn in H. injection H as <-. right. cbn [overhead_call]. rewrite pwl_peval. apply py_max_eq. exact E.
    + assert (L : (2 <=? length (rev (a :: b :: c :: S)))%nat = true) by (rewrite rev_length; reflexivity). rewrite L in H. injection H as <-.
      right. cbn [overhead_call]. match goal with |- pwl_call ?F x == _ => assert (E' : pev F x == pev (p :: runmax (snd p) r) x) by exact E; assert (LF : (2 <= length F)%nat) by (first [rewrite rev_length; cbn; lia | rewrite !app_length; cbn; lia]); destruct F as [|u [|v l]] end; [cbn in LF; lia|cbn in LF; lia|].
      rewrite pwl_peval. apply py_max_eq. exact E'.
Qed.

Lemma sortedx_of : forall r p, increasing (p :: r) -> sortedx (fst p) r.
Proof.
  induction r as [|q r IH]; intros p H; [exact I|]. split; [apply (H 0%nat p q eq_refl eq_refl)|].
  apply IH. intros i a b Ha Hb. apply (H (S i)); assumption.
Qed.

Lemma runmax_nth : forall r p i m, nth_error (p :: runmax (snd p) r) i = Some m ->
  running_max (p :: r) i (snd m) /\ exists q, nth_error (p :: r) i = Some q /\ fst q = fst m.
Proof.
  intros r p i. revert p r. induction i as [|i IH]; intros p r m H.
  - cbn in H. injection H as <-. split.
    + split; [intros [|j] q Hj E; [cbn in E; injection E as <-; apply Qle_refl|lia]|]. exists 0%nat, p. split; [lia|]. split; reflexivity.
    + exists p. split; reflexivity.
  - destruct r as [|q r]; [destruct i; discriminate|]. cbn [runmax nth_error] in H.
    set (q' := (fst q, py_max (snd p) (snd q)) : point) in *.
    destruct (IH q' r m) as [[R1 [j [w [R2 [R3 R4]]]]] [z [R5 R6]]].
    { exact H. }
    split; [split|].
    + intros k v Hk E. destruct k as [|k].
      { cbn in E. injection E as <-. eapply Qle_trans; [|apply (R1 0%nat q'); [lia|reflexivity]]. apply py_max_ge_l. }
      cbn [nth_error] in E. destruct k as [|k].
      { cbn in E. injection E as <-. eapply Qle_trans; [|apply (R1 0%nat q'); [lia|reflexivity]]. apply py_max_ge_r. }
      apply (R1 (S k) v); [lia|]. exact E.
    + destruct j as [|j].
      * cbn in R3. injection R3 as <-. cbn [snd] in R4. unfold q' in R4. cbn [snd] in R4.
        destruct (py_max_cases (snd p) (snd q)) as [C|C]; rewrite C in R4.
        -- exists 0%nat, p. split; [lia|]. split; [reflexivity|assumption].
        -- exists 1%nat, q. split; [lia|]. split; [reflexivity|assumption].
      * exists (S (S j)), w. split; [lia|]. split; assumption.
    + cbn [nth_error] in *. destruct i; cbn in R5 |- *.
      * injection R5 as <-. exists q. split; [reflexivity|exact R6].
      * exists z. split; assumption.
Qed.

Lemma running_max_unique : forall pts i a b, running_max pts i a -> running_max pts i b -> a == b.
Proof.
  intros pts i a b [A1 [j [p [A2 [A3 A4]]]]] [B1 [k [q [B2 [B3 B4]]]]].
  apply Qle_antisym; [rewrite <- A4; apply (B1 j); assumption|rewrite <- B4; apply (A1 k); assumption].
Qed.

Lemma runmax_length : forall r y, length (runmax y r) = length r.
Proof. induction r; intros; cbn; [reflexivity|]. rewrite IHr. reflexivity. Qed.

Lemma runmax_at : forall r p i q m, nth_error (p :: r) i = Some q -> running_max (p :: r) i m ->
  exists z, nth_error (p :: runmax (snd p) r) i = Some z /\ fst z = fst q /\ snd z == m.
Proof.
  intros r p i q m H R. destruct (nth_error (p :: runmax (snd p) r) i) as [z|] eqn:E.
  - destruct (runmax_nth r p i z E) as [R1 [q' [E1 E2]]]. exists z. split; [reflexivity|]. split; [congruence|]. eapply running_max_unique; eassumption.
  - apply nth_error_None in E. assert ((i < length (p :: r))%nat) by (apply nth_error_Some; congruence). cbn [length] in *. rewrite runmax_length in E. lia.
Qed.

(** ** Results *)
Lemma pwlin_defined : forall pts, pts <> [] -> exists f, monotonic_pwlin pts = Some f.
Proof.
  intros [|p r] H; [congruence|]. unfold monotonic_pwlin, make_monotonic. destruct (fold_left mono_step r ([p], None, snd p)) as [[S pp] prev].
  set (F := rev _). destruct (2 <=? length F)%nat; [eexists; reflexivity|]. destruct F; eexists; reflexivity.
Qed.

Lemma pwlin_mono : forall pts f x y, increasing pts -> monotonic_pwlin pts = Some f -> x <= y -> overhead_call f x <= overhead_call f y.
Proof.
  intros [|p r] f x y Hi H Hxy; [discriminate|]. pose proof (sortedx_of r p Hi) as Hs.
  assert (M : pev (p :: runmax (snd p) r) x <= pev (p :: runmax (snd p) r) y).
  { cbn [pev]. apply peval_mono; [apply runmax_sorted; assumption|apply runmax_mono|assumption]. }
  unfold monotonic_pwlin in H. destruct (make_monotonic (p :: r)) as [F|] eqn:E; [|discriminate].
  assert (X : forall z, overhead_call f z == pev (p :: runmax (snd p) r) z \/ overhead_call f z == py_max 0 (pev (p :: runmax (snd p) r) z)).
  { intros z. apply call_pev; [assumption|]. unfold monotonic_pwlin. rewrite E. exact H. }
  destruct (2 <=? length F)%nat eqn:L.
  - injection H as <-. destruct F as [|u [|v l]]; try discriminate.
    assert (Y : forall z, 0 <= overhead_call (OPwl (u :: v :: l)) z) by (intros z; cbn [overhead_call]; apply py_max_ge_l).
    assert (Z : forall z, overhead_call (OPwl (u :: v :: l)) z == py_max 0 (pev (p :: runmax (snd p) r) z)).
    { intros z. destruct (X z) as [A|A]; [|assumption]. rewrite A. symmetry. apply py_max_r. rewrite <- A. apply Y. }
    rewrite !Z. apply py_max_mono. assumption.
  - assert (C : forall a z, linear_call (const a) z == a) by (intros; unfold linear_call, const; cbn; ring).
    destruct F; injection H as <-; cbn [overhead_call]; rewrite !C; apply Qle_refl.
Qed.

Lemma pwlin_nonneg_call : forall p r f x, sortedx (fst p) r -> 0 <= pev (p :: runmax (snd p) r) x -> monotonic_pwlin (p :: r) = Some f ->
  overhead_call f x == pev (p :: runmax (snd p) r) x.
Proof.
  intros p r f x Hs H0 H. destruct (call_pev p r f x Hs H) as [A|A]; [assumption|]. rewrite A. apply py_max_r. assumption.
Qed.

Lemma pwlin_interp : forall pts f i p q m1 m2 x, increasing pts -> Forall (fun s => 0 <= snd s) pts -> monotonic_pwlin pts = Some f ->
  nth_error pts i = Some p -> nth_error pts (S i) = Some q -> running_max pts i m1 -> running_max pts (S i) m2 ->
  fst p <= x -> x <= fst q -> interpolated (fst p) m1 (fst q) m2 x (overhead_call f x).
Proof.
  intros [|a r] f i p q m1 m2 x Hi Hn H Hp Hq R1 R2 X1 X2; [destruct i; discriminate|]. pose proof (sortedx_of r a Hi) as Hs.
  destruct (runmax_at r a i p m1 Hp R1) as [u [U1 [U2 U3]]]. destruct (runmax_at r a (S i) q m2 Hq R2) as [v [V1 [V2 V3]]].
  assert (L : pev (a :: runmax (snd a) r) x == line u v x).
  { cbn [pev]. eapply peval_segment; [apply runmax_sorted; assumption|eassumption|eassumption|rewrite U2; assumption|rewrite V2; assumption]. }
  assert (UV : fst u < fst v) by (rewrite U2, V2; apply (Hi i); assumption).
  assert (MM : m1 <= m2).
  { destruct R1 as [_ [j [w [J1 [J2 J3]]]]]. rewrite <- J3. destruct R2 as [R2 _]. apply (R2 j); [lia|assumption]. }
  assert (N : 0 <= pev (a :: runmax (snd a) r) x).
  { rewrite L. apply Qle_trans with (snd u).
    - rewrite U3. destruct R1 as [_ [j [w [J1 [J2 J3]]]]]. rewrite <- J3. rewrite Forall_forall in Hn. apply Hn. eapply nth_error_In; eassumption.
    - rewrite <- (line_left u v). apply line_mono; [assumption|rewrite U3, V3; assumption|rewrite U2; assumption]. }
  unfold interpolated. rewrite (pwlin_nonneg_call a r f x Hs N H), L. unfold line. rewrite <- U2, <- V2.
  pose proof (slope_eq u v UV) as S. rewrite <- U3, <- V3.
  setoid_replace ((snd u + slope u v * (x - fst u)) * (fst v - fst u)) with (snd u * (fst v - fst u) + (slope u v * (fst v - fst u)) * (x - fst u)) by ring.
  rewrite S. ring.
Qed.

Lemma pwlin_sample : forall pts f i p m, increasing pts -> Forall (fun s => 0 <= snd s) pts -> monotonic_pwlin pts = Some f ->
  nth_error pts i = Some p -> running_max pts i m -> overhead_call f (fst p) == m.
Proof.
  intros [|a r] f i p m Hi Hn H Hp R; [destruct i; discriminate|]. pose proof (sortedx_of r a Hi) as Hs.
  destruct (runmax_at r a i p m Hp R) as [u [U1 [U2 U3]]].
  assert (L : pev (a :: runmax (snd a) r) (fst p) == m).
  { cbn [pev]. pose proof (runmax_sorted r (fst a) (snd a) Hs) as Hs'. rewrite <- U2, <- U3. destruct i as [|i].
    - cbn in U1. injection U1 as <-. apply peval_left. assumption.
    - destruct (nth_error (a :: runmax (snd a) r) i) as [w|] eqn:E.
      + rewrite (peval_segment _ a i w u (fst u) Hs' E U1); [|apply Qlt_le_weak|apply Qle_refl].
        * apply line_right. destruct i.
          -- cbn in E. injection E as <-. exact (sortedx_nth _ _ 0%nat u Hs' U1).
          -- destruct (runmax_nth r a (S i) w E) as [_ [z [Z1 Z2]]]. destruct (runmax_nth r a (S (S i)) u U1) as [_ [z' [Z1' Z2']]].
             rewrite <- Z2, <- Z2'. apply (Hi (S i)); assumption.
        * destruct i.
          -- cbn in E. injection E as <-. exact (sortedx_nth _ _ 0%nat u Hs' U1).
          -- destruct (runmax_nth r a (S i) w E) as [_ [z [Z1 Z2]]]. destruct (runmax_nth r a (S (S i)) u U1) as [_ [z' [Z1' Z2']]].
             rewrite <- Z2, <- Z2'. apply (Hi (S i)); assumption.
      + apply nth_error_None in E. assert ((S i < length (a :: runmax (snd a) r))%nat) by (apply nth_error_Some; congruence). lia. }
  rewrite (pwlin_nonneg_call a r f (fst p) Hs); [exact L| |exact H]. rewrite L.
  destruct R as [_ [j [w [J1 [J2 J3]]]]]. rewrite <- J3. rewrite Forall_forall in Hn. apply Hn. eapply nth_error_In; eassumption.
Qed.

Lemma running_max_exists : forall pts i p, nth_error pts i = Some p -> exists m, running_max pts i m.
Proof.
  intros [|a r] i p H; [destruct i; discriminate|]. destruct (nth_error (a :: runmax (snd a) r) i) as [z|] eqn:E.
  - exists (snd z). apply (runmax_nth r a i z E).
  - apply nth_error_None in E. assert ((i < length (a :: r))%nat) by (apply nth_error_Some; congruence). cbn [length] in *. rewrite runmax_length in E. lia.
Qed.

Lemma pwlin_dominates : forall pts f p, increasing pts -> Forall (fun s => 0 <= snd s) pts -> monotonic_pwlin pts = Some f ->
  In p pts -> snd p <= overhead_call f (fst p).
Proof.
  intros pts f p Hi Hn H Hp. apply In_nth_error in Hp. destruct Hp as [i E]. destruct (running_max_exists pts i p E) as [m R].
  rewrite (pwlin_sample pts f i p m Hi Hn H E R). destruct R as [R _]. apply (R i); [lia|assumption].
Qed.

Lemma pwlin_least : forall pts f g p, increasing pts -> Forall (fun s => 0 <= snd s) pts -> monotonic_pwlin pts = Some f ->
  (forall x y, x <= y -> g x <= g y) -> (forall q, In q pts -> snd q <= g (fst q)) -> In p pts -> overhead_call f (fst p) <= g (fst p).
Proof.
  intros pts f g p Hi Hn H Hg Hd Hp. apply In_nth_error in Hp. destruct Hp as [i E]. destruct (running_max_exists pts i p E) as [m R].
  rewrite (pwlin_sample pts f i p m Hi Hn H E R). destruct R as [_ [j [w [J1 [J2 J3]]]]]. rewrite <- J3.
  eapply Qle_trans; [apply Hd; eapply nth_error_In; eassumption|]. apply Hg.
  destruct (Nat.eq_dec j i) as [->|N]; [replace w with p by congruence; apply Qle_refl|].
  assert (J4 : (j < i)%nat) by lia. clear - Hi E J2 J4.
  revert p E. induction i as [|i IH]; intros p E; [lia|].
  destruct (nth_error pts i) as [z|] eqn:Z; [|apply nth_error_None in Z; assert ((S i < length pts)%nat) by (apply nth_error_Some; congruence); lia].
  apply Qle_trans with (fst z); [|apply Qlt_le_weak; apply (Hi i); assumption].
  destruct (Nat.eq_dec j i) as [->|N]; [replace z with w by congruence; apply Qle_refl|apply IH; [lia|reflexivity]].
Qed.

Lemma pwlin_increasing_samples : forall pts f p i, increasing pts -> Forall (fun s => 0 <= snd s) pts -> monotonic_pwlin pts = Some f ->
  (forall k a b, nth_error pts k = Some a -> nth_error pts (S k) = Some b -> snd a <= snd b) ->
  nth_error pts i = Some p -> overhead_call f (fst p) == snd p.
Proof.
  intros pts f p i Hi Hn H Hm Hp. apply (pwlin_sample pts f i p (snd p)); try assumption. split.
  - intros k a Hk E. clear - Hm Hp E Hk. revert p Hp Hk. induction i as [|i IH]; intros p Hp Hk.
    + replace k with 0%nat in E by lia. replace a with p by congruence. apply Qle_refl.
    + destruct (Nat.eq_dec k (S i)) as [->|N]; [replace a with p by congruence; apply Qle_refl|].
      destruct (nth_error pts i) as [z|] eqn:Z; [|apply nth_error_None in Z; assert ((S i < length pts)%nat) by (apply nth_error_Some; congruence); lia].
      eapply Qle_trans; [apply IH; [reflexivity|lia]|]. eapply Hm; eassumption.
  - exists i, p. split; [lia|]. split; [assumption|reflexivity].
Qed.

(** ** The filtered points *)
Fixpoint chain (S : list point) : Prop :=
  match S with
  | a :: ((b :: _) as r) => fst b < fst a /\ snd b <= snd a /\ chain r
  | _ => True
  end.

Lemma chain_push : forall S top x y, chain S -> hd_error S = Some top -> fst top < x -> snd top <= y -> chain ((x, y) :: S) /\ (S <> [top] -> chain ((x, y) :: tl S)).
Proof.
  intros [|t [|b S]] top x y H Ht H1 H2; cbn in Ht; [discriminate| |]; injection Ht as ->.
  - split; [cbn; auto|congruence].
  - destruct H as [C1 [C2 C3]]. split.
    + cbn [chain fst snd]. auto.
    + intros _. cbn [tl]. change (fst b < x /\ snd b <= y /\ chain (b :: S)). split; [lra|]. split; [lra|assumption].
Qed.

Lemma mono_chain : forall r S pp prev top S' pp' prev', chain S -> hd_error S = Some top -> snd top = prev -> sortedx (fst top) r ->
  (pp <> None -> S <> [top]) -> fold_left mono_step r (S, pp, prev) = (S', pp', prev') -> chain S'.
Proof.
  induction r as [|p r IH]; intros S pp prev top S' pp' prev' Hc Ht Hp Hs Hn H; cbn [fold_left] in H; [injection H as <- <- <-; assumption|].
  destruct Hs as [Hs1 Hs2]. destruct (chain_push S top (fst p) (py_max prev (snd p)) Hc Ht Hs1) as [P1 P2]; [rewrite Hp; apply py_max_ge_l|].
  unfold mono_step in H at 2. destruct pp as [v|].
  - assert (NE : S <> [top]) by (apply Hn; discriminate). destruct S as [|t [|b S]]; cbn in Ht; [discriminate|injection Ht as ->; congruence|].
    destruct (Qeq_bool v (py_max prev (snd p))); (apply IH with (top := (fst p, py_max prev (snd p))) in H; [exact H|auto|reflexivity|reflexivity|assumption|intros _; discriminate]).
  - destruct S as [|t S]; [discriminate|]. apply IH with (top := (fst p, py_max prev (snd p))) in H; [exact H|auto|reflexivity|reflexivity|assumption|intros _; discriminate].
Qed.

Lemma is_monotonic_ok : forall r p, sortedx (fst p) r -> monoy (snd p) r -> is_monotonic_from p r = Some true.
Proof.
  induction r as [|q r IH]; intros p Hs Hm; [reflexivity|]. destruct Hs as [S1 S2]. destruct Hm as [M1 M2]. cbn [is_monotonic_from].
  apply qle_bool_false in S1. rewrite S1. cbn [negb]. apply Qle_bool_iff in M1. rewrite M1. cbn [negb]. apply IH; assumption.
Qed.

Lemma chain_rev : forall S top rest, chain S -> hd_error S = Some top -> sortedx (fst top) rest -> monoy (snd top) rest -> is_monotonic (rev S ++ rest) = Some true.
Proof.
  induction S as [|t S IH]; intros top rest Hc Ht Hs Hm; [discriminate|]. cbn in Ht. injection Ht as ->.
  cbn [rev]. rewrite <- app_assoc. cbn [app]. destruct S as [|b S]; [cbn; apply is_monotonic_ok; assumption|].
  destruct Hc as [C1 [C2 C3]]. eapply IH; [exact C3|reflexivity|split; assumption|split; assumption].
Qed.

Lemma make_monotonic_ok : forall pts l, increasing pts -> make_monotonic pts = Some l -> is_monotonic l = Some true.
Proof.
  intros [|p r] l Hi H; [discriminate|]. pose proof (sortedx_of r p Hi) as Hs. unfold make_monotonic in H.
  destruct (fold_left mono_step r ([p], None, snd p)) as [[S pp] prev] eqn:E.
  assert (NE : S <> []) by (eapply fold_nonempty; [|exact E]; discriminate).
  apply mono_chain with (top := p) in E; [|exact I|reflexivity|reflexivity|assumption|congruence].
  destruct S as [|a S]; [congruence|].
  assert (R : is_monotonic (rev (a :: S)) = Some true).
  { rewrite <- (app_nil_r (rev (a :: S))). eapply chain_rev; [exact E|reflexivity|exact I|exact I]. }
  destruct S as [|b [|c S]]; [injection H as <-; exact R| |injection H as <-; exact R].
  destruct (Qeq_bool (snd a) (snd b)); injection H as <-; [reflexivity|exact R].
Qed.
