(** The tracing algorithm finds the smallest compliant s. *)
From Coq Require Import ZArith QArith Qround Lqa List Bool Lia Permutation Sorted.
From Verif Require Import Base ModelTasks ProofTasks ModelTardiness ProofTardiness.
Import ListNotations.
Open Scope Q_scope.

(** ** The replacements *)
Definition event_ok (lines : list (Q * Q)) (r : replacement) : Prop :=
  (r_old r < length lines)%nat /\ (r_new r < length lines)%nat /\ slope lines (r_old r) < slope lines (r_new r) /\
  0 <= r_at r /\ val lines (r_at r) (r_old r) == val lines (r_at r) (r_new r).

Lemma pair_sound : forall lines i j r, (i < length lines)%nat -> (j < length lines)%nat ->
  In r (pair_replacement lines i j) -> event_ok lines r.
Proof.
  intros lines i j r Hi Hj H. unfold pair_replacement in H.
  destruct (Qeq_bool (slope lines i) (slope lines j)) eqn:E; [destruct H|]. apply Qeq_bool_neq in E. cbv zeta in H.
  set (x := (icept lines j - icept lines i) / (slope lines i - slope lines j)) in *.
  destruct (Qle_bool 0 x) eqn:E0; [|destruct H]. apply Qle_bool_iff in E0.
  assert (Ex : x * (slope lines i - slope lines j) == icept lines j - icept lines i).
  { unfold x. field. intros H0. apply E. lra. }
  destruct (qltb (slope lines i) (slope lines j)) eqn:El.
  - destruct H as [<-|[]]. apply qltb_iff in El. unfold event_ok, val. cbn [r_at r_old r_new]. repeat split; try assumption. lra.
  - destruct H as [<-|[]]. apply qltb_false in El. unfold event_ok, val. cbn [r_at r_old r_new]. repeat split; try assumption; [|lra].
    destruct (Qlt_le_dec (slope lines j) (slope lines i)); [assumption|]. exfalso. apply E. lra.
Qed.

Lemma all_sound : forall lines r, In r (all_replacements lines) -> event_ok lines r.
Proof.
  intros lines r H. unfold all_replacements in H. apply in_flat_map in H. destruct H as [i [Hi H]]. apply in_flat_map in H.
  destruct H as [j [Hj H]]. apply in_seq in Hi. apply in_seq in Hj. eapply pair_sound; [| |exact H]; lia.
Qed.

Lemma pair_complete : forall lines i j x, slope lines i < slope lines j -> 0 <= x -> val lines x i == val lines x j ->
  (exists r, In r (pair_replacement lines i j) /\ r_old r = i /\ r_new r = j) /\
  (exists r, In r (pair_replacement lines j i) /\ r_old r = i /\ r_new r = j).
Proof.
  intros lines i j x Hs Hx Hv. unfold val in Hv. unfold pair_replacement. split.
  - destruct (Qeq_bool (slope lines i) (slope lines j)) eqn:E; [apply Qeq_bool_iff in E; lra|]. cbv zeta.
    assert (Hx' : (icept lines j - icept lines i) / (slope lines i - slope lines j) == x).
    { field_simplify_eq; [lra|lra]. }
    replace (Qle_bool 0 ((icept lines j - icept lines i) / (slope lines i - slope lines j))) with true
      by (symmetry; apply Qle_bool_iff; rewrite Hx'; assumption).
    replace (qltb (slope lines i) (slope lines j)) with true by (symmetry; apply qltb_iff; assumption).
    eexists. split; [left; reflexivity|]. split; reflexivity.
  - destruct (Qeq_bool (slope lines j) (slope lines i)) eqn:E; [apply Qeq_bool_iff in E; lra|]. cbv zeta.
    assert (Hx' : (icept lines i - icept lines j) / (slope lines j - slope lines i) == x).
    { field_simplify_eq; [lra|lra]. }
    replace (Qle_bool 0 ((icept lines i - icept lines j) / (slope lines j - slope lines i))) with true
      by (symmetry; apply Qle_bool_iff; rewrite Hx'; assumption).
    replace (qltb (slope lines j) (slope lines i)) with false by (symmetry; apply qltb_false; lra).
    eexists. split; [left; reflexivity|]. split; reflexivity.
Qed.

Lemma all_complete : forall lines i j x, (i < length lines)%nat -> (j < length lines)%nat ->
  slope lines i < slope lines j -> 0 <= x -> val lines x i == val lines x j ->
  exists r, In r (all_replacements lines) /\ r_old r = i /\ r_new r = j.
Proof.
  intros lines i j x Hi Hj Hs Hx Hv. destruct (pair_complete lines i j x Hs Hx Hv) as [[r1 [A1 A2]] [r2 [B1 B2]]].
  destruct (Nat.lt_trichotomy i j) as [L|[->|L]]; [|lra|].
  - exists r1. split; [|assumption]. apply in_flat_map. exists i. split; [apply in_seq; lia|]. apply in_flat_map. exists j.
    split; [apply in_seq; lia|assumption].
  - exists r2. split; [|assumption]. apply in_flat_map. exists j. split; [apply in_seq; lia|]. apply in_flat_map. exists i.
    split; [apply in_seq; lia|assumption].
Qed.

Lemma repl_le_iff : forall lines a b, repl_le lines a b = true <->
  r_at a < r_at b \/ (r_at a == r_at b /\ slope lines (r_old a) <= slope lines (r_old b)).
Proof. intros. unfold repl_le. rewrite orb_true_iff, andb_true_iff, qltb_iff, Qeq_bool_iff, Qle_bool_iff. reflexivity. Qed.

Definition rle (lines : list (Q * Q)) (a b : replacement) : Prop := repl_le lines a b = true.

Lemma insert_repl_perm : forall lines x l, Permutation (x :: l) (insert_repl lines x l).
Proof.
  induction l as [|y l IH]; [apply Permutation_refl|]. cbn [insert_repl]. destruct (repl_le lines x y); [apply Permutation_refl|].
  eapply perm_trans; [apply perm_swap|]. apply perm_skip. exact IH.
Qed.

Lemma sort_repl_perm : forall lines l, Permutation l (sort_repl lines l).
Proof.
  induction l as [|x l IH]; [constructor|]. cbn [sort_repl fold_right]. fold (sort_repl lines l).
  eapply perm_trans; [apply perm_skip; exact IH|]. apply insert_repl_perm.
Qed.

Lemma insert_repl_sorted : forall lines x l, StronglySorted (rle lines) l -> StronglySorted (rle lines) (insert_repl lines x l).
Proof.
  intros lines x l H. induction H as [|y l Hs IH Hf]; [repeat constructor|]. cbn [insert_repl].
  destruct (repl_le lines x y) eqn:E.
  - constructor; [constructor; assumption|]. constructor; [exact E|]. eapply Forall_impl; [|exact Hf].
    intros z Hz. unfold rle in *. rewrite repl_le_iff in *. lra.
  - constructor; [assumption|]. eapply Permutation_Forall; [apply insert_repl_perm|]. constructor; [|assumption].
    unfold rle. rewrite repl_le_iff. apply not_true_iff_false in E. rewrite repl_le_iff in E.
    destruct (Qlt_le_dec (r_at y) (r_at x)); [left; assumption|].
    destruct (Qlt_le_dec (r_at x) (r_at y)); [exfalso; lra|]. right. split; [lra|].
    destruct (Qlt_le_dec (slope lines (r_old x)) (slope lines (r_old y))); [exfalso; apply E; right; split; lra|assumption].
Qed.

Lemma sort_repl_sorted : forall lines l, StronglySorted (rle lines) (sort_repl lines l).
Proof. induction l as [|x l IH]; [constructor|]. apply insert_repl_sorted. exact IH. Qed.

(** ** Initially present tasks *)
Definition kge (key : nat -> Q) (a b : nat) : Prop := key b <= key a.

Lemma insert_idx_perm : forall key x l, Permutation (x :: l) (insert_idx key x l).
Proof.
  induction l as [|y l IH]; [apply Permutation_refl|]. cbn [insert_idx]. destruct (Qle_bool (key y) (key x)); [apply Permutation_refl|].
  eapply perm_trans; [apply perm_swap|]. apply perm_skip. exact IH.
Qed.

Lemma insert_idx_sorted : forall key x l, StronglySorted (kge key) l -> StronglySorted (kge key) (insert_idx key x l).
Proof.
  intros key x l H. induction H as [|y l Hs IH Hf]; [repeat constructor|]. cbn [insert_idx].
  destruct (Qle_bool (key y) (key x)) eqn:E.
  - apply Qle_bool_iff in E. constructor; [constructor; assumption|]. constructor; [exact E|]. eapply Forall_impl; [|exact Hf].
    intros z Hz. unfold kge in *. lra.
  - constructor; [assumption|]. eapply Permutation_Forall; [apply insert_idx_perm|]. constructor; [|assumption].
    unfold kge. destruct (Qlt_le_dec (key y) (key x)) as [L|L]; [|assumption]. apply Qlt_le_weak, Qle_bool_iff in L. congruence.
Qed.

Lemma firstn_top : forall (R : nat -> nat -> Prop) k l, StronglySorted R l ->
  forall a b, In a (firstn k l) -> In b (skipn k l) -> R a b.
Proof.
  induction k as [|k IH]; intros l Hs a b Ha Hb; [destruct Ha|]. destruct l as [|x l]; [destruct Ha|].
  inversion Hs as [|? ? H1 H2]; subst. cbn in Ha, Hb. destruct Ha as [<-|Ha].
  - rewrite Forall_forall in H2. apply H2. rewrite <- (firstn_skipn k l). apply in_or_app. right. assumption.
  - eapply IH; eassumption.
Qed.

Lemma init_spec : forall k lines, (Z.to_nat k <= length lines)%nat ->
  index_set (length lines) (Z.to_nat k) (init_indices k lines) /\ top_at lines 0 (init_indices k lines).
Proof.
  intros k lines Hk. unfold init_indices. set (l := fold_right (insert_idx (icept lines)) [] (seq 0 (length lines))).
  assert (P : Permutation (seq 0 (length lines)) l).
  { unfold l. clear. induction (seq 0 (length lines)) as [|x q IH]; [constructor|]. cbn [fold_right].
    eapply perm_trans; [apply perm_skip; exact IH|]. apply insert_idx_perm. }
  assert (Sd : StronglySorted (kge (icept lines)) l).
  { unfold l. clear. induction (seq 0 (length lines)) as [|x q IH]; [constructor|]. apply insert_idx_sorted. exact IH. }
  assert (Hl : length l = length lines) by (rewrite <- (Permutation_length P), seq_length; reflexivity).
  assert (Hn : NoDup l) by (eapply Permutation_NoDup; [exact P|apply seq_NoDup]). clearbody l. split.
  - split; [|split].
    + rewrite <- (firstn_skipn (Z.to_nat k) l) in Hn. clear - Hn. induction (firstn (Z.to_nat k) l) as [|x a IH]; [constructor|].
      cbn in Hn. inversion_clear Hn. constructor; [|apply IH; assumption]. intros Hi. apply H. apply in_or_app. left. assumption.
    + intros i Hi. assert (H : In i l) by (rewrite <- (firstn_skipn (Z.to_nat k) l); apply in_or_app; left; assumption).
      eapply Permutation_in in H; [|symmetry; exact P]. apply in_seq in H. lia.
    + rewrite firstn_length. lia.
  - intros i j Hi Hj Hnj. assert (In j l) as H by (eapply Permutation_in; [exact P|]; apply in_seq; lia).
    rewrite <- (firstn_skipn (Z.to_nat k) l) in H. apply in_app_or in H. destruct H as [H|H]; [contradiction|].
    pose proof (firstn_top _ _ _ Sd i j Hi H) as G. unfold kge in G. unfold val. lra.
Qed.

(** ** The trace *)
Section Trace.
  Variables (lines : list (Q * Q)) (mm : Z) (K : nat) (Sv : Q).
  Let n := length lines.
  Hypothesis Hm : (Z.of_nat K + 1 <= mm)%Z.
  Hypothesis Hslope : forall i, (i < n)%nat -> slope lines i <= 1.

  Definition good (z : Q) : Prop :=
    0 <= z /\ exists A, index_set n K A /\ top_at lines z A /\ Sv + qsum (map (val lines z) A) == inject_Z mm * z.

  Definition inA (pres : nat -> bool) (A : list nat) : Prop := forall i, pres i = true <-> In i A.

  Record inv (done rest : list replacement) (cs value slp : Q) (pres : nat -> bool) (A : list nat) : Prop := Inv {
    iv_nonneg : 0 <= cs;
    iv_set : index_set n K A;
    iv_pres : inA pres A;
    iv_total : Permutation (all_replacements lines) (done ++ rest);
    iv_sorted : StronglySorted (rle lines) (done ++ rest);
    iv_later : Forall (fun r => cs <= r_at r) rest;
    iv_value : value == Sv + qsum (map (val lines cs) A) - inject_Z mm * cs;
    iv_slope : slp == - inject_Z mm + qsum (map (slope lines) A);
    iv_top : top_at lines cs A;
    iv_event : forall i j, In i A -> (j < n)%nat -> ~ In j A -> slope lines i < slope lines j ->
      exists r, In r rest /\ r_old r = i /\ r_new r = j }.

  Lemma slope_neg : forall A, index_set n K A -> - inject_Z mm + qsum (map (slope lines) A) < 0.
  Proof.
    intros A [A1 [A2 A3]].
    assert (G : qsum (map (slope lines) A) <= qsum (map (fun _ => 1) A)) by (apply qs_le; intros i Hi; apply Hslope, A2, Hi).
    rewrite qs_const, A3 in G. assert (inject_Z (Z.of_nat K) + 1 <= inject_Z mm).
    { change 1 with (inject_Z 1). rewrite <- inject_Z_plus, <- Zle_Qle. exact Hm. }
    lra.
  Qed.

  Lemma val_move : forall a b i, val lines b i == val lines a i + slope lines i * (b - a).
  Proof. intros. unfold val. ring. Qed.

  Lemma sum_move : forall A a b, qsum (map (val lines b) A) == qsum (map (val lines a) A) + qsum (map (slope lines) A) * (b - a).
  Proof.
    induction A as [|x A IH]; intros a b; cbn [map].
    - change (qsum []) with 0. ring.
    - rewrite !qs_cons, (IH a b), (val_move a b x). ring.
  Qed.

  Lemma zero_good : forall A cs value slp, 0 <= cs -> index_set n K A ->
    value == Sv + qsum (map (val lines cs) A) - inject_Z mm * cs -> slp == - inject_Z mm + qsum (map (slope lines) A) -> 0 <= value ->
    top_at lines (cs - value / slp) A -> cs <= cs - value / slp /\ good (cs - value / slp).
  Proof.
    intros A cs value slp H0 HA Hv Hs Hp Ht. pose proof (slope_neg A HA) as Hn. rewrite <- Hs in Hn.
    set (z := cs - value / slp) in *. assert (Ez : (z - cs) * slp == - value) by (unfold z; field; lra).
    assert (Hz : cs <= z) by nra. split; [assumption|]. split; [lra|]. exists A. split; [assumption|]. split; [assumption|].
    rewrite (sum_move A cs z). rewrite Hs in Ez. lra.
  Qed.

  (** a pair that has not yet been exchanged is still ordered at any point up to the next event *)
  Lemma top_until : forall done rest cs value slp pres A L, inv done rest cs value slp pres A -> cs <= L ->
    Forall (fun r => L <= r_at r) rest -> top_at lines L A.
  Proof.
    intros done rest cs value slp pres A L I HL Hf i j Hi Hj Hn.
    pose proof (iv_top _ _ _ _ _ _ _ I i j Hi Hj Hn) as T.
    destruct (Qlt_le_dec (slope lines i) (slope lines j)) as [Hs|Hs].
    - destruct (iv_event _ _ _ _ _ _ _ I i j Hi Hj Hn Hs) as [r [R1 [R2 R3]]]. rewrite Forall_forall in Hf. specialize (Hf r R1).
      assert (Hok : event_ok lines r).
      { apply all_sound. eapply Permutation_in; [symmetry; exact (iv_total _ _ _ _ _ _ _ I)|]. apply in_or_app. right. assumption. }
      destruct Hok as [_ [_ [_ [_ Hv]]]]. rewrite R2, R3 in Hv. rewrite (val_move L (r_at r) i), (val_move L (r_at r) j) in Hv. nra.
    - rewrite (val_move cs L i), (val_move cs L j). nra.
  Qed.

  Lemma sorted_head_le : forall done r rest, StronglySorted (rle lines) (done ++ r :: rest) ->
    Forall (rle lines r) rest /\ Forall (fun d => rle lines d r) done.
  Proof.
    induction done as [|d done IH]; intros r rest H; cbn in H; inversion H as [|? ? H1 H2]; subst.
    - split; [assumption|constructor].
    - destruct (IH r rest H1) as [I1 I2]. split; [assumption|]. constructor; [|assumption].
      rewrite Forall_forall in H2. apply H2. apply in_or_app. right. left. reflexivity.
  Qed.

  Lemma later_event : forall done e rest r, Permutation (all_replacements lines) (done ++ e :: rest) ->
    StronglySorted (rle lines) (done ++ e :: rest) -> In r (all_replacements lines) -> ~ rle lines r e -> In r rest.
  Proof.
    intros done e rest r P Sd Hr Hn. apply (Permutation_in _ P) in Hr. apply in_app_or in Hr. destruct Hr as [Hr|[<-|Hr]].
    - exfalso. apply Hn. destruct (sorted_head_le _ _ _ Sd) as [_ H]. rewrite Forall_forall in H. apply H. assumption.
    - exfalso. apply Hn. unfold rle. apply repl_le_iff. right. split; lra.
    - assumption.
  Qed.

  Lemma remove_perm : forall o A, NoDup A -> In o A -> Permutation A (o :: remove Nat.eq_dec o A).
  Proof.
    intros o A Hn Hi. apply NoDup_Permutation; [assumption| |].
    - constructor; [apply remove_In|]. clear Hi. induction Hn as [|x A Hx Hn IH]; [constructor|]. cbn [remove].
      destruct (Nat.eq_dec o x); [assumption|]. constructor; [|assumption]. intros H. apply in_remove in H. destruct H. contradiction.
    - intros x. split.
      + intros H. destruct (Nat.eq_dec x o) as [->|Hne]; [left; reflexivity|]. right. apply in_in_remove; assumption.
      + intros [<-|H]; [assumption|]. apply in_remove in H. apply H.
  Qed.

  Lemma crossing : forall i j a, 0 <= a -> slope lines i < slope lines j -> val lines a j <= val lines a i ->
    exists x, a <= x /\ val lines x i == val lines x j.
  Proof.
    intros i j a Ha Hs Hv. exists (a + (val lines a i - val lines a j) / (slope lines j - slope lines i)).
    set (d := (val lines a i - val lines a j) / (slope lines j - slope lines i)).
    assert (Ed : d * (slope lines j - slope lines i) == val lines a i - val lines a j) by (unfold d; field; lra).
    split; [nra|]. rewrite (val_move a (a + d) i), (val_move a (a + d) j). nra.
  Qed.

  Lemma event_at : forall i j r a, event_ok lines r -> r_old r = i -> r_new r = j -> r_at r <= a -> val lines a i <= val lines a j.
  Proof.
    intros i j r a [_ [_ [Hs [_ Hv]]]] <- <- Ha. rewrite (val_move (r_at r) a (r_old r)), (val_move (r_at r) a (r_new r)). nra.
  Qed.

  Lemma event_strict : forall i j r a, event_ok lines r -> r_old r = i -> r_new r = j -> a < r_at r -> val lines a j < val lines a i.
  Proof.
    intros i j r a [_ [_ [Hs [_ Hv]]]] <- <- Ha. rewrite (val_move a (r_at r) (r_old r)), (val_move a (r_at r) (r_new r)) in Hv. nra.
  Qed.

  (** One event: the invariant moves on to the point of the event. *)
  Lemma step_keep : forall done e rest cs value slp pres A,
    inv done (e :: rest) cs value slp pres A -> (pres (r_old e) && negb (pres (r_new e)))%bool = false ->
    inv (done ++ [e]) rest (r_at e) (value + (r_at e - cs) * slp) slp pres A.
  Proof.
    intros done e rest cs value slp pres A I Hk. destruct I as [I1 I2 I3 I4 I5 I6 I7 I8 I9 I10] eqn:EI. clear EI.
    inversion I6 as [|? ? Hle Hf]; subst. destruct (sorted_head_le _ _ _ I5) as [Hs1 Hs2].
    assert (Hlater : Forall (fun r => r_at e <= r_at r) rest).
    { eapply Forall_impl; [|exact Hs1]. intros r Hr. unfold rle in Hr. rewrite repl_le_iff in Hr. lra. }
    constructor.
    - lra.
    - assumption.
    - assumption.
    - rewrite <- app_assoc. exact I4.
    - rewrite <- app_assoc. exact I5.
    - assumption.
    - rewrite I7, I8, (sum_move A cs (r_at e)). ring.
    - assumption.
    - eapply top_until; [exact I|assumption|]. constructor; [lra|assumption].
    - intros i j Hi Hj Hn Hs. destruct (I10 i j Hi Hj Hn Hs) as [r [[<-|R1] [R2 R3]]]; [|exists r; repeat split; assumption].
      exfalso. rewrite R2, R3 in Hk. apply I3 in Hi. rewrite Hi in Hk. cbn in Hk. apply negb_false_iff in Hk. apply I3 in Hk. contradiction.
  Qed.

  Lemma step_swap : forall done e rest cs value slp pres A,
    inv done (e :: rest) cs value slp pres A -> (pres (r_old e) && negb (pres (r_new e)))%bool = true ->
    inv (done ++ [e]) rest (r_at e) (value + (r_at e - cs) * slp) (slp - slope lines (r_old e) + slope lines (r_new e))
      (fun i => if Nat.eqb i (r_old e) then false else if Nat.eqb i (r_new e) then true else pres i)
      (r_new e :: remove Nat.eq_dec (r_old e) A).
  Proof.
    intros done e rest cs value slp pres A I Hk. destruct I as [I1 I2 I3 I4 I5 I6 I7 I8 I9 I10] eqn:EI. clear EI.
    inversion I6 as [|? ? Hle Hf]; subst. destruct (sorted_head_le _ _ _ I5) as [Hs1 Hs2].
    assert (Hlater : Forall (fun r => r_at e <= r_at r) rest).
    { eapply Forall_impl; [|exact Hs1]. intros r Hr. unfold rle in Hr. rewrite repl_le_iff in Hr. lra. }
    assert (Hok : forall r, In r (done ++ e :: rest) -> event_ok lines r).
    { intros r Hr. apply all_sound. eapply Permutation_in; [symmetry; exact I4|exact Hr]. }
    assert (He : event_ok lines e) by (apply Hok, in_or_app; right; left; reflexivity).
    pose proof He as [Ho [Hn [Hs [H0 Hv]]]].
    apply andb_true_iff in Hk. destruct Hk as [Hk1 Hk2]. apply I3 in Hk1. apply negb_true_iff in Hk2.
    assert (Hk2' : ~ In (r_new e) A) by (intros HH; apply I3 in HH; congruence). clear Hk2. rename Hk2' into Hk2.
    destruct I2 as [A1 [A2 A3]]. pose proof (remove_perm (r_old e) A A1 Hk1) as PA.
    assert (Hne : r_old e <> r_new e) by (intros E; rewrite E in Hs; lra).
    assert (Hin : forall x, In x (remove Nat.eq_dec (r_old e) A) <-> In x A /\ x <> r_old e).
    { intros x. split; [intros H; apply in_remove in H; exact H|intros [H1 H2]; apply in_in_remove; assumption]. }
    assert (Htop : top_at lines (r_at e) A).
    { eapply top_until; [exact I|assumption|]. constructor; [lra|assumption]. }
    constructor.
    - lra.
    - split; [|split].
      + constructor; [rewrite Hin; tauto|]. assert (NoDup (r_old e :: remove Nat.eq_dec (r_old e) A)) as ND by (eapply Permutation_NoDup; [exact PA|assumption]).
        inversion ND; assumption.
      + intros i [<-|Hi]; [assumption|]. apply A2. apply Hin. assumption.
      + pose proof (Permutation_length PA) as PL. cbn [length] in *. lia.
    - intros i. destruct (Nat.eqb_spec i (r_old e)) as [->|N1].
      + split; [discriminate|]. intros [E|H]; [congruence|]. apply Hin in H. destruct H. congruence.
      + destruct (Nat.eqb_spec i (r_new e)) as [->|N2].
        * split; [intros _; left; reflexivity|reflexivity].
        * rewrite (I3 i). split; [intros H; right; apply Hin; split; assumption|]. intros [E|H]; [congruence|]. apply Hin in H. apply H.
    - rewrite <- app_assoc. exact I4.
    - rewrite <- app_assoc. exact I5.
    - assumption.
    - assert (E1 : qsum (map (val lines (r_at e)) A) == qsum (map (val lines (r_at e)) (r_new e :: remove Nat.eq_dec (r_old e) A))).
      { rewrite (qs_perm _ _ _ _ PA). cbn [map]. rewrite !qs_cons. lra. }
      rewrite <- E1, I7, I8, (sum_move A cs (r_at e)). ring.
    - rewrite I8. rewrite (qs_perm _ (slope lines) _ _ PA). cbn [map]. rewrite !qs_cons. ring.
    - intros i j Hi Hj Hnj. destruct (Nat.eq_dec j (r_old e)) as [->|Nj].
      + destruct Hi as [<-|Hi]; [lra|]. apply Hin in Hi. destruct Hi as [Hi _]. specialize (Htop i (r_new e) Hi Hn Hk2). lra.
      + assert (Hj' : ~ In j A) by (intros H; apply Hnj; right; apply Hin; split; assumption).
        destruct Hi as [<-|Hi]; [specialize (Htop (r_old e) j Hk1 Hj Hj'); lra|].
        apply Hin in Hi. apply Htop; [apply Hi|assumption|assumption].
    - intros i j Hi Hj Hnj Hsl.
      (* an event strictly after e in the order of the list is still to come *)
      assert (Hcome : forall x, r_at e <= x -> val lines x i == val lines x j -> (i < n)%nat ->
                (r_at e < x \/ slope lines (r_old e) < slope lines i) -> exists r, In r rest /\ r_old r = i /\ r_new r = j).
      { intros x Hx Hxv Hin' Hlt. destruct (all_complete lines i j x Hin' Hj Hsl ltac:(lra) Hxv) as [r [R1 [R2 R3]]].
        assert (Hr : event_ok lines r) by (apply all_sound; assumption).
        assert (Er : r_at r == x).
        { destruct Hr as [_ [_ [_ [_ Hrv]]]]. rewrite R2, R3 in Hrv. rewrite (val_move x (r_at r) i), (val_move x (r_at r) j) in Hrv.
          destruct (Qlt_le_dec (r_at r) x); [nra|]. destruct (Qlt_le_dec x (r_at r)); [nra|]. lra. }
        exists r. split; [|split; assumption]. eapply later_event; [exact I4|exact I5|assumption|].
        unfold rle. rewrite repl_le_iff, R2, Er. lra. }
      destruct (Nat.eq_dec j (r_old e)) as [->|Nj].
      + destruct Hi as [<-|Hi]; [lra|]. apply Hin in Hi. destruct Hi as [Hi Hio].
        destruct (I10 i (r_new e) Hi Hn Hk2 ltac:(lra)) as [r [[<-|R1] [R2 R3]]]; [congruence|].
        assert (Hr : event_ok lines r) by (apply Hok, in_or_app; right; right; assumption).
        assert (Hlt : r_at e < r_at r).
        { rewrite Forall_forall in Hs1. specialize (Hs1 r R1). unfold rle in Hs1. rewrite repl_le_iff, R2 in Hs1. lra. }
        pose proof (event_strict i (r_new e) r (r_at e) Hr R2 R3 Hlt) as Hst.
        destruct (crossing i (r_old e) (r_at e) ltac:(lra) Hsl ltac:(lra)) as [x [Hx1 Hx2]].
        apply (Hcome x Hx1 Hx2 (A2 i Hi)). left. destruct (Qlt_le_dec (r_at e) x); [assumption|].
        assert (Ex : x == r_at e) by lra. rewrite (val_move (r_at e) x i), (val_move (r_at e) x (r_old e)), Ex in Hx2. lra.
      + assert (Hj' : ~ In j A) by (intros H; apply Hnj; right; apply Hin; split; assumption).
        destruct Hi as [<-|Hi].
        * pose proof (Htop (r_old e) j Hk1 Hj Hj') as T.
          destruct (crossing (r_new e) j (r_at e) ltac:(lra) Hsl ltac:(lra)) as [x [Hx1 Hx2]].
          apply (Hcome x Hx1 Hx2 Hn). right. assumption.
        * apply Hin in Hi. destruct Hi as [Hi Hio]. destruct (I10 i j Hi Hj Hj' Hsl) as [r [[<-|R1] [R2 R3]]]; [congruence|].
          exists r. repeat split; assumption.
  Qed.

  Lemma trace_good : forall rest done zero cs value slp pres,
    (zero <= cs -> good zero) ->
    (cs < zero -> 0 <= value /\ exists A, inv done rest cs value slp pres A) ->
    good (trace lines rest zero cs value slp pres).
  Proof.
    induction rest as [|e rest IH]; intros done zero cs value slp pres H1 H2; cbn [trace];
      (destruct (qltb cs zero) eqn:Eq; [apply qltb_iff in Eq|apply qltb_false in Eq; auto]).
    - destruct (H2 Eq) as [Hp [A I]]. cbv zeta.
      eapply (fun a b c d e f => proj2 (zero_good A cs value slp a b c d e f)); try (eapply iv_nonneg, I || eapply iv_set, I || eapply iv_value, I || eapply iv_slope, I || assumption).
      eapply top_until; [exact I| |constructor].
      pose proof (slope_neg A (iv_set _ _ _ _ _ _ _ I)) as Hn. rewrite <- (iv_slope _ _ _ _ _ _ _ I) in Hn.
      set (z := cs - value / slp). assert (Ez : (z - cs) * slp == - value) by (unfold z; field; lra). nra.
    - destruct (H2 Eq) as [Hp [A I]]. cbv zeta. set (z := cs - value / slp).
      pose proof (slope_neg A (iv_set _ _ _ _ _ _ _ I)) as Hn. rewrite <- (iv_slope _ _ _ _ _ _ _ I) in Hn.
      assert (Ez : (z - cs) * slp == - value) by (unfold z; field; lra).
      assert (Hz : cs <= z) by nra.
      assert (Hlater : Forall (fun r => r_at e <= r_at r) (e :: rest)).
      { constructor; [lra|]. destruct (sorted_head_le _ _ _ (iv_sorted _ _ _ _ _ _ _ I)) as [Hs1 _].
        eapply Forall_impl; [|exact Hs1]. intros r Hr. unfold rle in Hr. rewrite repl_le_iff in Hr. lra. }
      assert (Hcs : cs <= r_at e) by (pose proof (iv_later _ _ _ _ _ _ _ I) as F; inversion F; assumption).
      assert (Hgood : z <= r_at e -> good z).
      { intros Hzl. apply (zero_good A cs value slp); try (eapply iv_nonneg, I || eapply iv_set, I || eapply iv_value, I || eapply iv_slope, I || assumption).
        eapply top_until; [exact I|exact Hz|]. eapply Forall_impl; [|exact Hlater]. cbv beta. intros r Hr. fold z. lra. }
      assert (Hval : r_at e < z -> 0 <= value + (r_at e - cs) * slp) by (intros; nra).
      destruct (pres (r_old e) && negb (pres (r_new e)))%bool eqn:Ek.
      + apply (IH (done ++ [e])); [exact Hgood|]. intros Hlt. split; [apply Hval; assumption|]. eexists. eapply step_swap; eassumption.
      + apply (IH (done ++ [e])); [exact Hgood|]. intros Hlt. split; [apply Hval; assumption|]. eexists. eapply step_keep; eassumption.
  Qed.
End Trace.

Lemma exact_good : forall m uc S lines,
  let K := Z.to_nat (uc - 1) in
  (K <= length lines)%nat -> (Z.of_nat K + 1 <= m)%Z -> (forall i, (i < length lines)%nat -> slope lines i <= 1) ->
  (forall A, index_set (length lines) K A -> 0 <= S + qsum (map (icept lines) A)) ->
  good lines m K S (compute_exact_s m uc S lines).
Proof.
  intros m uc S lines K HK Hm Hs H0. unfold compute_exact_s. destruct (init_spec (uc - 1) lines HK) as [I1 I2].
  apply (trace_good lines m K S Hm Hs _ []).
  - intros H. exfalso. lra.
  - intros _. split; [apply H0; exact I1|]. exists (init_indices (uc - 1) lines). constructor.
    + lra.
    + exact I1.
    + intros i. rewrite existsb_exists. split.
      * intros [x [Hx E]]. apply Nat.eqb_eq in E. subst x. assumption.
      * intros H. exists i. split; [assumption|apply Nat.eqb_refl].
    + cbn [app]. apply sort_repl_perm.
    + cbn [app]. apply sort_repl_sorted.
    + apply Forall_forall. intros r Hr. eapply Permutation_in in Hr; [|symmetry; apply sort_repl_perm]. apply all_sound in Hr.
      destruct Hr as [_ [_ [_ [Hr _]]]]. exact Hr.
    + assert (E : qsum (map (val lines 0) (init_indices (uc - 1) lines)) == qsum (map (icept lines) (init_indices (uc - 1) lines))).
      { apply Qle_antisym; apply qs_le; intros i _; unfold val; lra. }
      rewrite E. change (inject_Z m * 0) with (inject_Z m * 0). lra.
    + reflexivity.
    + exact I2.
    + intros i j Hi Hj Hnj Hsl. destruct (crossing lines i j 0 ltac:(lra) Hsl (I2 i j Hi Hj Hnj)) as [x [Hx1 Hx2]].
      destruct I1 as [_ [A2 _]]. destruct (all_complete lines i j x (A2 i Hi) Hj Hsl Hx1 Hx2) as [r [R1 R2]].
      exists r. split; [eapply Permutation_in; [apply sort_repl_perm|exact R1]|exact R2].
Qed.

(** A zero of M reached this way is the smallest compliant s. *)
Lemma good_compliant : forall lines m K S z, good lines m K S z -> compliant (inject_Z m) K S lines z.
Proof.
  intros lines m K S z [Hz [A [HA [Ht E]]]]. split; [assumption|]. intros B HB. pose proof (top_sum lines z K A B HA Ht HB). lra.
Qed.

Lemma good_smallest : forall lines m K S z s, (Z.of_nat K + 1 <= m)%Z -> (forall i, (i < length lines)%nat -> slope lines i <= 1) ->
  good lines m K S z -> compliant (inject_Z m) K S lines s -> z <= s.
Proof.
  intros lines m K S z s Hm Hs [Hz [A [HA [Ht E]]]] [H0 Hc]. specialize (Hc A HA).
  rewrite (sum_move lines A z s) in Hc. pose proof (slope_neg lines m K Hm Hs A HA). nra.
Qed.
