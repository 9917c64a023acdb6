(** Bin packing: every heuristic is a run of its selection rule. *)
From Coq Require Import QArith List Bool Arith Lia Lqa Permutation.
From Verif Require Import Base ModelTasks ModelBinpack SpecBinpack.
Import ListNotations.
Open Scope Q_scope.

Lemma load_app : forall A (w : A -> Q) a b, load w (a ++ b) == load w a + load w b.
Proof. induction a as [|x a IH]; intros b; cbn; [ring|]. rewrite IH. ring. Qed.

Lemma update_app : forall B (f : B -> B) pre b post, update (length pre) f (pre ++ b :: post) = pre ++ f b :: post.
Proof. induction pre as [|y pre IH]; intros; cbn; [reflexivity|]. rewrite IH. reflexivity. Qed.

Lemma nth_split' : forall B (l : list B) i, (i < length l)%nat -> exists pre b post, l = pre ++ b :: post /\ length pre = i.
Proof.
  intros B l i Hi. destruct (nth_error l i) as [b|] eqn:E.
  - apply nth_error_split in E. destruct E as [pre [post [H1 H2]]]. exists pre, b, post. auto.
  - apply nth_error_None in E. lia.
Qed.

(** ** Runs *)
Section Runs.
  Context {A : Type} (w : A -> Q).

  Lemma run_perm : forall r items bins bins' rep, run w r items bins bins' rep ->
    Permutation (concat bins' ++ rep) (concat bins ++ items).
  Proof.
    induction 1 as [bins|x items pre bin post bins' rep Hr Hrun IH|x items bins bins' rep Hr Hrun IH].
    - reflexivity.
    - etransitivity; [exact IH|]. rewrite !concat_app. cbn [concat]. rewrite <- !app_assoc. cbn [app].
      apply Permutation_app_head. apply Permutation_app_head. apply Permutation_middle.
    - etransitivity; [symmetry; apply Permutation_middle|]. etransitivity; [apply perm_skip; exact IH|]. apply Permutation_middle.
  Qed.

  Lemma run_length : forall r items bins bins' rep, run w r items bins bins' rep -> length bins' = length bins.
  Proof.
    induction 1 as [| |]; [reflexivity| |assumption]. rewrite IHrun, !app_length. reflexivity.
  Qed.

  Lemma run_capacity : forall cap (r : rule), (forall loads c i, r loads c (Some i) -> fits cap loads c i) ->
    forall items bins bins' rep, run w r items bins bins' rep ->
    Forall (fun b => load w b <= cap) bins -> Forall (fun b => load w b <= cap) bins'.
  Proof.
    intros cap r Hr. induction 1 as [|x items pre bin post bins' rep H1 H2 IH|]; intros HF; [assumption| |auto].
    apply IH. apply Forall_app in HF. destruct HF as [F1 F2]. inv F2. apply Forall_app. split; [assumption|].
    constructor; [|assumption]. apply Hr in H1. destruct H1 as [l [E1 E2]].
    rewrite map_app in E1. rewrite nth_error_app2 in E1 by (rewrite map_length; lia).
    rewrite map_length, Nat.sub_diag in E1. cbn in E1. inv E1. rewrite load_app. cbn. lra.
  Qed.
End Runs.

(** ** Picks obey the rules; loads up to [==] *)
Definition same (a b : list Q) : Prop := Forall2 Qeq a b.

Lemma same_nth : forall a b i x, same a b -> nth_error a i = Some x -> exists y, nth_error b i = Some y /\ x == y.
Proof.
  intros a b i x H. revert i. induction H; intros [|i] E; cbn in E; try discriminate.
  - inv E. exists y. split; [reflexivity|assumption].
  - apply IHForall2. assumption.
Qed.

Lemma same_sym : forall a b, same a b -> same b a.
Proof. induction 1; constructor; [symmetry; assumption|assumption]. Qed.

Lemma fits_same : forall cap a b c i, same a b -> fits cap a c i -> fits cap b c i.
Proof.
  intros cap a b c i H [l [E1 E2]]. destruct (same_nth _ _ _ _ H E1) as [y [Ey Hy]]. exists y. split; [assumption|]. lra.
Qed.

(** A rule only depends on the loads up to [==]. *)
Definition proper_rule (r : rule) : Prop := forall a b c d, same a b -> r a c d -> r b c d.

Lemma misfit_same : forall cap a b c, same a b -> misfit_iff cap a c -> misfit_iff cap b c.
Proof. intros cap a b c H Hm i F. apply (Hm i). eapply fits_same; [apply same_sym; eassumption|assumption]. Qed.

Lemma first_proper : forall cap, proper_rule (first_rule cap).
Proof.
  intros cap a b c [i|] H; cbn; [|apply misfit_same; assumption].
  intros [H1 H2]. split; [eapply fits_same; eassumption|]. intros j Hj F. apply (H2 j Hj).
  eapply fits_same; [apply same_sym; eassumption|assumption].
Qed.

Lemma worst_proper : forall cap, proper_rule (worst_rule cap).
Proof.
  intros cap a b c [i|] H; cbn; [|apply misfit_same; assumption].
  intros [H1 H2]. split; [eapply fits_same; eassumption|]. intros j li lj F Ei Ej.
  apply same_sym in H. destruct (same_nth _ _ _ _ H Ei) as [yi [Eyi Hyi]]. destruct (same_nth _ _ _ _ H Ej) as [yj [Eyj Hyj]].
  destruct (H2 j yi yj (fits_same _ _ _ _ _ H F) Eyi Eyj) as [G1 G2]. split; [lra|]. intro E. apply G2. lra.
Qed.

Lemma best_proper : forall cap, proper_rule (best_rule cap).
Proof.
  intros cap a b c [i|] H; cbn; [|apply misfit_same; assumption].
  intros [H1 H2]. split; [eapply fits_same; eassumption|]. intros j li lj F Ei Ej.
  apply same_sym in H. destruct (same_nth _ _ _ _ H Ei) as [yi [Eyi Hyi]]. destruct (same_nth _ _ _ _ H Ej) as [yj [Eyj Hyj]].
  destruct (H2 j yi yj (fits_same _ _ _ _ _ H F) Eyi Eyj) as [G1 G2]. split; [lra|]. intro E. apply G2. lra.
Qed.

Lemma almost_proper : forall cap, proper_rule (almost_worst_rule cap).
Proof.
  intros cap a b c [i|] H; cbn; [|apply misfit_same; assumption].
  intros [H1 H2]. split; [eapply fits_same; eassumption|]. pose proof (same_sym _ _ H) as H'.
  destruct H2 as [H2|[k [lk [li [H2 [H3 [H4 [H5 [H6 H7]]]]]]]]].
  - left. intros j F. apply H2. eapply fits_same; eassumption.
  - right. destruct (same_nth _ _ _ _ H H4) as [yk [Eyk Hyk]]. destruct (same_nth _ _ _ _ H H5) as [yi [Eyi Hyi]].
    exists k, yk, yi. repeat split; try assumption; [eapply fits_same; eassumption|lra|].
    intros j lj Hj F Ej. destruct (same_nth _ _ _ _ H' Ej) as [yj [Eyj Hyj]].
    specialize (H7 j yj Hj (fits_same _ _ _ _ _ H' F) Eyj). lra.
Qed.

Section Picks.
  Variable cap : Q.

  Lemma fitsb_true : forall c s, fitsb cap c s = true <-> s + c <= cap.
  Proof. intros. unfold fitsb. apply Qle_bool_iff. Qed.

  Lemma fitsb_false : forall c s, fitsb cap c s = false -> ~ s + c <= cap.
  Proof. intros c s H F. apply fitsb_true in F. congruence. Qed.

  Lemma fits_cons : forall s r c i, fits cap (s :: r) c (S i) <-> fits cap r c i.
  Proof. intros. reflexivity. Qed.

  Lemma pick_first_ok : forall sums c, first_rule cap sums c (pick_first cap sums c).
  Proof.
    induction sums as [|s r IH]; intros c; cbn.
    - intros i [l [E _]]. destruct i; discriminate.
    - specialize (IH c). destruct (fitsb cap c s) eqn:E.
      + split; [|intros; lia]. exists s. split; [reflexivity|]. apply fitsb_true. assumption.
      + apply fitsb_false in E. destruct (pick_first cap r c) as [i|]; cbn in *.
        * destruct IH as [H1 H2]. split; [assumption|]. intros [|j] Hj [l [E1 E2]].
          -- cbn in E1. inv E1. contradiction.
          -- apply (H2 j); [lia|]. exists l. split; assumption.
        * intros [|j] [l [E1 E2]]; cbn in E1.
          -- inv E1. contradiction.
          -- apply (IH j). exists l. split; assumption.
  Qed.

  Lemma index_some : forall v l x, In x l -> x == v -> exists i y, index v l = Some i /\ nth_error l i = Some y /\ y == v /\
    forall j z, (j < i)%nat -> nth_error l j = Some z -> ~ z == v.
  Proof.
    induction l as [|s r IH]; intros x Hin Hx; [destruct Hin|]. cbn. destruct (Qeq_bool s v) eqn:E.
    - exists 0%nat, s. repeat split; [apply Qeq_bool_iff; assumption|]. intros; lia.
    - assert (Hs : ~ s == v) by (intro F; apply Qeq_bool_iff in F; congruence).
      destruct Hin as [->|Hin]; [contradiction|]. destruct (IH x Hin Hx) as [i [y [E1 [E2 [E3 E4]]]]].
      exists (S i), y. rewrite E1. repeat split; try assumption. intros [|j] z Hj Ez; cbn in Ez; [inv Ez; assumption|].
      apply (E4 j); [lia|assumption].
  Qed.

  Lemma qmin_list_spec : forall l a, In (qmin_list a l) (a :: l) /\ forall x, In x (a :: l) -> qmin_list a l <= x.
  Proof.
    induction l as [|y l IH]; intros a; cbn.
    - split; [left; reflexivity|]. intros x [<-|[]]. apply Qle_refl.
    - fold (qmin_list (if negb (Qle_bool a y) then y else a) l). destruct (Qle_bool a y) eqn:E; cbn [negb].
      + destruct (IH a) as [H1 H2]. apply Qle_bool_iff in E. split.
        * destruct H1 as [H1|H1]; [left; assumption|right; right; assumption].
        * intros x [<-|[<-|Hx]]; [apply H2; left; reflexivity| |apply H2; right; assumption].
          eapply Qle_trans; [apply H2; left; reflexivity|assumption].
      + destruct (IH y) as [H1 H2]. assert (Hya : y <= a).
        { destruct (Qlt_le_dec y a); [apply Qlt_le_weak; assumption|]. apply Qle_bool_iff in q. congruence. }
        split.
        * right. assumption.
        * intros x [<-|[<-|Hx]]; [|apply H2; left; reflexivity|apply H2; right; assumption].
          eapply Qle_trans; [apply H2; left; reflexivity|assumption].
  Qed.

  Lemma no_candidates : forall sums c, filter (fitsb cap c) sums = [] -> misfit_iff cap sums c.
  Proof.
    intros sums c H i [l [E1 E2]]. assert (In l (filter (fitsb cap c) sums)).
    { apply filter_In. split; [eapply nth_error_In; eassumption|]. apply fitsb_true. assumption. }
    rewrite H in H0. destruct H0.
  Qed.

  Lemma fits_in : forall sums c j l, fits cap sums c j -> nth_error sums j = Some l -> In l (filter (fitsb cap c) sums).
  Proof.
    intros sums c j l [l' [E1 E2]] E. rewrite E in E1. inv E1. apply filter_In.
    split; [eapply nth_error_In; eassumption|]. apply fitsb_true. assumption.
  Qed.

  Lemma pick_worst_ok : forall sums c, worst_rule cap sums c (pick_worst cap sums c).
  Proof.
    intros sums c. unfold pick_worst. pose proof (no_candidates sums c) as Hno. pose proof (fits_in sums c) as Hin.
    destruct (filter (fitsb cap c) sums) as [|a r] eqn:E; [apply Hno; reflexivity|].
    destruct (qmin_list_spec r a) as [H1 H2]. set (v := qmin_list a r) in *.
    assert (Hv : In v (filter (fitsb cap c) sums)) by (rewrite E; assumption).
    apply filter_In in Hv. destruct Hv as [Hv1 Hv2]. apply fitsb_true in Hv2.
    destruct (index_some v sums v Hv1 (Qeq_refl v)) as [i [y [E1 [E2 [E3 E4]]]]]. rewrite E1. cbn. split.
    - exists y. split; [assumption|]. lra.
    - intros j li lj F Ei Ej. rewrite E2 in Ei. inv Ei. specialize (H2 lj (Hin j lj F Ej)). split; [lra|].
      intros Heq. destruct (le_lt_dec i j) as [|G]; [assumption|]. exfalso. apply (E4 j lj G Ej). lra.
  Qed.

  Lemma insert_asc_perm : forall x l, Permutation (insert_asc x l) (x :: l).
  Proof.
    induction l as [|y l IH]; cbn; [reflexivity|]. destruct (Qle_bool x y); [reflexivity|].
    rewrite IH. apply perm_swap.
  Qed.
  Lemma sort_asc_perm : forall l, Permutation (sort_asc l) l.
  Proof. induction l as [|x l IH]; cbn; [reflexivity|]. rewrite insert_asc_perm, IH. reflexivity. Qed.

  Inductive asc : list Q -> Prop :=
  | asc_nil : asc [] | asc_cons : forall x l, (forall y, In y l -> x <= y) -> asc l -> asc (x :: l).

  Lemma insert_asc_sorted : forall x l, asc l -> asc (insert_asc x l).
  Proof.
    induction l as [|y l IH]; intros H; cbn; [constructor; [intros ? []|constructor]|].
    inv H. destruct (Qle_bool x y) eqn:E.
    - apply Qle_bool_iff in E. constructor; [|constructor; assumption]. intros z [<-|Hz]; [assumption|].
      eapply Qle_trans; [exact E|]. apply H2. assumption.
    - assert (Hyx : y <= x).
      { destruct (Qlt_le_dec y x); [apply Qlt_le_weak; assumption|]. apply Qle_bool_iff in q. congruence. }
      constructor; [|apply IH; assumption]. intros z Hz. apply (Permutation_in _ (insert_asc_perm x l)) in Hz.
      destruct Hz as [<-|Hz]; [assumption|]. apply H2. assumption.
  Qed.
  Lemma sort_asc_sorted : forall l, asc (sort_asc l).
  Proof. induction l; cbn; [constructor|]. apply insert_asc_sorted. assumption. Qed.

  (** the bins behind the elements of the candidate list *)
  Lemma filter_positions : forall c sums, exists idx,
    filter (fitsb cap c) sums = map (fun i => nth i sums 0) idx /\ NoDup idx /\
    forall i, In i idx <-> fits cap sums c i.
  Proof.
    intros c sums. induction sums as [|s r [idx [H1 [H2 H3]]]].
    - exists []. repeat split; [constructor|intros []|]. intros [l [E _]]. destruct i; discriminate.
    - assert (Hm : map (fun i => nth i (s :: r) 0) (map S idx) = map (fun i => nth i r 0) idx)
        by (rewrite map_map; reflexivity).
      assert (Hnd : NoDup (map S idx)).
      { apply FinFun.Injective_map_NoDup; [intros a b; congruence|assumption]. }
      cbn [filter]. destruct (fitsb cap c s) eqn:E.
      + exists (0%nat :: map S idx). split; [rewrite map_cons, Hm, <- H1; reflexivity|]. split.
        * constructor; [|assumption]. intro F. apply in_map_iff in F. destruct F as [? [? _]]. discriminate.
        * intros [|i]; split.
          -- intros _. exists s. split; [reflexivity|]. apply fitsb_true. assumption.
          -- intros _. left. reflexivity.
          -- intros [F|F]; [discriminate|]. apply in_map_iff in F. destruct F as [j [Ej Hj]]. inv Ej. apply fits_cons. apply H3. assumption.
          -- intros F. right. apply in_map. apply H3. assumption.
      + apply fitsb_false in E. exists (map S idx). rewrite Hm. split; [assumption|]. split; [assumption|].
        intros [|i]; split.
        * intros F. apply in_map_iff in F. destruct F as [? [? _]]. discriminate.
        * intros [l [E1 E2]]. cbn in E1. inv E1. contradiction.
        * intros F. apply in_map_iff in F. destruct F as [j [Ej Hj]]. inv Ej. apply fits_cons. apply H3. assumption.
        * intros F. apply in_map. apply H3. assumption.
  Qed.

  Lemma fits_nth : forall sums c i, fits cap sums c i -> nth_error sums i = Some (nth i sums 0) /\ nth i sums 0 + c <= cap.
  Proof.
    intros sums c i [l [E1 E2]]. pose proof (nth_error_nth _ _ 0 E1) as E. rewrite E. split; assumption.
  Qed.

  Lemma pick_almost_ok : forall sums c, almost_worst_rule cap sums c (pick_almost_worst cap sums c).
  Proof.
    intros sums c. unfold pick_almost_worst.
    destruct (filter_positions c sums) as [idx [H1 [H2 H3]]].
    pose proof (sort_asc_perm (filter (fitsb cap c) sums)) as HP. pose proof (sort_asc_sorted (filter (fitsb cap c) sums)) as HS.
    pose proof (no_candidates sums c) as Hno.
    rewrite H1 in HP at 2. apply Permutation_map_inv in HP.
    destruct HP as [idx' [E Hp]]. rewrite E in *.
    assert (Hnd : NoDup idx') by (eapply Permutation_NoDup; eassumption).
    assert (Hf : forall i, In i idx' <-> fits cap sums c i).
    { intros i. rewrite <- H3. split; apply Permutation_in; [symmetry|]; assumption. }
    destruct idx' as [|p [|q idx']]; cbn [map].
    - apply Hno. rewrite H1. symmetry in Hp. apply Permutation_nil in Hp. rewrite Hp. reflexivity.
    - assert (Fp : fits cap sums c p) by (apply Hf; left; reflexivity).
      destruct (fits_nth _ _ _ Fp) as [Ep Hpc].
      destruct (index_some (nth p sums 0) sums (nth p sums 0) (nth_error_In _ _ Ep) (Qeq_refl _)) as [i [y [E1 [E2 [E3 E4]]]]].
      rewrite E1. cbn. assert (Fi : fits cap sums c i) by (exists y; split; [assumption|lra]).
      split; [assumption|]. left. intros j Fj. apply Hf in Fj. apply Hf in Fi. destruct Fj as [<-|[]]. destruct Fi as [<-|[]]. reflexivity.
    - assert (Fp : fits cap sums c p) by (apply Hf; left; reflexivity).
      assert (Fq : fits cap sums c q) by (apply Hf; right; left; reflexivity).
      destruct (fits_nth _ _ _ Fp) as [Ep Hpc]. destruct (fits_nth _ _ _ Fq) as [Eq Hqc].
      destruct (index_some (nth q sums 0) sums (nth q sums 0) (nth_error_In _ _ Eq) (Qeq_refl _)) as [i [y [E1 [E2 [E3 E4]]]]].
      rewrite E1. cbn. assert (Fi : fits cap sums c i) by (exists y; split; [assumption|lra]).
      cbn [map] in HS. inv HS. inv H5.
      assert (Hpq : nth p sums 0 <= nth q sums 0) by (apply H4; left; reflexivity).
      assert (Hrest : forall j, In j idx' -> nth q sums 0 <= nth j sums 0).
      { intros j Hj. apply H6. apply in_map with (f := fun i => nth i sums 0). assumption. }
      split; [assumption|]. right.
      destruct (Nat.eq_dec i p) as [->|Hip].
      + (* tie: the index search found p; use q as the other bin *)
        rewrite Ep in E2. inv E2. exists q, (nth q sums 0), (nth p sums 0). repeat split; try assumption.
        * intro F. subst. apply NoDup_cons_iff in Hnd. destruct Hnd as [Hn _]. apply Hn. left. reflexivity.
        * rewrite E3. apply Qle_refl.
        * intros j lj Hj Fj Ej. apply Hf in Fj. pose proof (nth_error_nth _ _ 0 Ej) as En. rewrite <- En.
          destruct Fj as [<-|[<-|Fj]]; [apply Qle_refl|contradiction|]. rewrite E3. apply Hrest. assumption.
      + exists p, (nth p sums 0), y. repeat split; try assumption; try congruence.
        * rewrite E3. assumption.
        * intros j lj Hj Fj Ej. apply Hf in Fj. pose proof (nth_error_nth _ _ 0 Ej) as En. rewrite <- En, E3.
          destruct Fj as [<-|[<-|Fj]]; [contradiction|apply Qle_refl|]. apply Hrest. assumption.
  Qed.

  (** ** Stable descending sort *)
  Section SortKey.
    Context {B : Type} (key : B -> Q).
    Lemma insert_key_perm : forall x l, Permutation (insert_key key x l) (x :: l).
    Proof.
      induction l as [|y l IH]; cbn; [reflexivity|]. destruct (Qle_bool (key y) (key x)); [reflexivity|].
      rewrite IH. apply perm_swap.
    Qed.
    Lemma sort_key_perm : forall l, Permutation (sort_key_desc key l) l.
    Proof. induction l as [|x l IH]; cbn; [reflexivity|]. rewrite insert_key_perm. fold (sort_key_desc key l). rewrite IH. reflexivity. Qed.

    Lemma insert_key_sorted : forall x l, decreasing_order key l -> decreasing_order key (insert_key key x l).
    Proof.
      induction l as [|y l IH]; intros H; cbn; [constructor; [intros ? []|constructor]|].
      inv H. destruct (Qle_bool (key y) (key x)) eqn:E.
      - apply Qle_bool_iff in E. constructor; [|constructor; assumption]. intros z [<-|Hz]; [assumption|].
        eapply Qle_trans; [|exact E]. apply H2. assumption.
      - assert (Hyx : key x <= key y).
        { destruct (Qlt_le_dec (key x) (key y)); [apply Qlt_le_weak; assumption|]. apply Qle_bool_iff in q. congruence. }
        constructor; [|apply IH; assumption]. intros z Hz. apply (Permutation_in _ (insert_key_perm x l)) in Hz.
        destruct Hz as [<-|Hz]; [assumption|]. apply H2. assumption.
    Qed.
    Lemma sort_key_sorted : forall l, decreasing_order key (sort_key_desc key l).
    Proof. induction l; cbn; [constructor|]. apply insert_key_sorted. assumption. Qed.

    Lemma insert_key_stable : forall x l v, decreasing_order key l ->
      filter (fun y => Qeq_bool (key y) v) (insert_key key x l) = filter (fun y => Qeq_bool (key y) v) (x :: l).
    Proof.
      induction l as [|y l IH]; intros v H; cbn [insert_key]; [reflexivity|]. inv H.
      destruct (Qle_bool (key y) (key x)) eqn:E; [reflexivity|].
      cbn [filter]. rewrite IH by assumption. cbn [filter].
      destruct (Qeq_bool (key x) v) eqn:Ex; [|reflexivity]. destruct (Qeq_bool (key y) v) eqn:Ey; [|reflexivity].
      exfalso. apply Qeq_bool_iff in Ex. apply Qeq_bool_iff in Ey.
      assert (key y <= key x) by lra. apply Qle_bool_iff in H. congruence.
    Qed.
    Lemma sort_key_stable : forall l v, filter (fun y => Qeq_bool (key y) v) (sort_key_desc key l) = filter (fun y => Qeq_bool (key y) v) l.
    Proof.
      induction l as [|x l IH]; intros v; [reflexivity|]. cbn [sort_key_desc fold_right]. fold (sort_key_desc key l).
      rewrite insert_key_stable by apply sort_key_sorted. cbn [filter]. rewrite IH. reflexivity.
    Qed.
  End SortKey.

  (** order inside a list *)
  Definition before {B} (l : list B) (a b : B) : Prop := exists l1 l2, l = l1 ++ b :: l2 /\ In a l1.

  Lemma find_first_in : forall B (P : B -> bool) l x, find P l = Some x ->
    exists l1 l2, l = l1 ++ x :: l2 /\ P x = true /\ forall y, In y l1 -> P y = false.
  Proof.
    induction l as [|y l IH]; intros x H; cbn in H; [discriminate|].
    destruct (P y) eqn:E.
    - inv H. exists [], l. repeat split; auto. intros ? [].
    - destruct (IH x H) as [a [b [-> [H1 H2]]]]. exists (y :: a), b. repeat split; auto.
      intros z [<-|Hz]; auto.
  Qed.

  Lemma decreasing_app : forall B (key : B -> Q) l1 x l2 y, decreasing_order key (l1 ++ x :: l2) -> In y l2 -> key y <= key x.
  Proof.
    induction l1 as [|z l1 IH]; intros x l2 y H Hy; cbn in H; inv H.
    - apply H2. assumption.
    - eapply IH; eassumption.
  Qed.

  Lemma filter_seq_lt : forall (P : nat -> bool) a n l1 l2 x y, filter P (seq a n) = l1 ++ x :: l2 -> In y l2 -> (x < y)%nat.
  Proof.
    intros P a n. revert a. induction n as [|n IH]; intros a l1 l2 x y H Hy; cbn in H.
    - destruct l1; discriminate.
    - destruct (P a).
      + destruct l1 as [|z l1]; cbn in H; inv H.
        * apply filter_In in Hy. destruct Hy as [Hy _]. apply in_seq in Hy. lia.
        * eapply IH; eassumption.
      + eapply IH; eassumption.
  Qed.

  Lemma pick_best_ok : forall sums c, best_rule cap sums c (pick_best cap sums c).
  Proof.
    intros sums c. unfold pick_best. set (key := fun i => nth i sums 0). set (l := sort_key_desc key (seq 0 (length sums))).
    pose proof (sort_key_perm key (seq 0 (length sums))) as HP. pose proof (sort_key_sorted key (seq 0 (length sums))) as HS.
    fold l in HP, HS.
    assert (Hin : forall i, fits cap sums c i -> In i l /\ fitsb cap c (key i) = true).
    { intros i F. destruct (fits_nth _ _ _ F) as [E1 E2]. split; [|apply fitsb_true; assumption].
      apply (Permutation_in _ (Permutation_sym HP)). apply in_seq. assert (i < length sums)%nat by (apply nth_error_Some; congruence). lia. }
    destruct (find (fun i => fitsb cap c (nth i sums 0)) l) as [i|] eqn:E.
    - apply find_first_in in E. destruct E as [l1 [l2 [E1 [E2 E3]]]]. cbn.
      assert (Hi : In i (seq 0 (length sums))) by (apply (Permutation_in _ HP); rewrite E1; apply in_or_app; right; left; reflexivity).
      apply in_seq in Hi. apply fitsb_true in E2.
      assert (Ei : nth_error sums i = Some (nth i sums 0)) by (apply nth_error_nth'; lia).
      split; [exists (nth i sums 0); split; assumption|].
      intros j li lj F Eli Elj. rewrite Ei in Eli. inv Eli. pose proof (nth_error_nth _ _ 0 Elj) as Ej.
      destruct (Hin j F) as [Hj1 Hj2]. rewrite E1 in Hj1. apply in_app_or in Hj1.
      destruct Hj1 as [Hj1|[Hj1|Hj1]].
      + apply E3 in Hj1. unfold key in Hj2. congruence.
      + subst j. rewrite Ej. split; [apply Qle_refl|]. intros. lia.
      + assert (Hle : key j <= key i) by (rewrite E1 in HS; eapply decreasing_app; eassumption).
        unfold key in Hle. rewrite Ej in Hle. split; [assumption|]. intros Heq.
        (* equal loads: stability keeps the index order *)
        pose proof (sort_key_stable key (seq 0 (length sums)) lj) as Hst. fold l in Hst. rewrite E1 in Hst.
        rewrite filter_app in Hst. cbn [filter] in Hst. unfold key in Hst at 2.
        rewrite (proj2 (Qeq_bool_iff (nth i sums 0) lj)) in Hst by assumption.
        symmetry in Hst. apply Nat.lt_le_incl.
        eapply filter_seq_lt; [exact Hst|]. apply filter_In. split; [assumption|]. apply Qeq_bool_iff. unfold key. rewrite Ej. reflexivity.
    - cbn. intros i F. destruct (Hin i F) as [H1 H2]. apply (find_none _ _ E) in H1. unfold key in H2. congruence.
  Qed.
End Picks.

(** ** The loops are runs *)
Section Loops.
  Context {A : Type} (w : A -> Q) (cap : Q) (raises : A -> bool).

  Lemma update_same : forall (x : A) sets sums i, same sums (map (load w) sets) ->
    same (update i (fun s => s + w x) sums) (map (load w) (put i x sets)).
  Proof.
    unfold put. intros x. induction sets as [|b sets IH]; intros sums i H; cbn in H; inversion H; subst.
    - cbn. destruct i; constructor.
    - destruct i; cbn.
      + constructor; [|assumption]. rewrite load_app. cbn. match goal with E : _ == load w b |- _ => rewrite E end. ring.
      + constructor; [assumption|]. apply IH. assumption.
  Qed.

  (** [items] up to the point where the misfit callback raised, or all *)
  Lemma pack_loop_run : forall pick (r : rule), proper_rule r -> (forall sums c, r sums c (pick sums c)) ->
    (forall loads c i, r loads c (Some i) -> fits cap loads c i) ->
    forall items sets sums reported, same sums (map (load w) sets) ->
    match pack_loop w raises pick items sets sums reported with
    | Sets sets' rep => exists rep', rep = reported ++ rep' /\ run w r items sets sets' rep' /\ forall x, In x rep' -> raises x = false
    | DidNotFit x => exists pre post sets' rep', items = pre ++ x :: post /\ run w r pre sets sets' rep' /\
        r (map (load w) sets') (w x) None /\ raises x = true
    | Crash => False
    end.
  Proof.
    intros pick r Hprop Hpick Hfit. induction items as [|x items IH]; intros sets sums reported Hs; cbn [pack_loop].
    - exists []. rewrite app_nil_r. split; [reflexivity|]. split; [constructor|intros ? []].
    - pose proof (Hpick sums (w x)) as Hr. destruct (pick sums (w x)) as [i|].
      + pose proof (Hprop _ _ _ _ Hs Hr) as Hr'. destruct (Hfit _ _ _ Hr') as [l [El _]].
        assert (Hi : (i < length sets)%nat).
        { rewrite <- (map_length (load w)). apply nth_error_Some. congruence. }
        destruct (nth_split' _ sets i Hi) as [pre [bin [post [E Hl]]]].
        specialize (IH (put i x sets) _ reported (update_same x sets sums i Hs)).
        assert (Hput : put i x sets = pre ++ (bin ++ [x]) :: post) by (unfold put; rewrite E, <- Hl; exact (update_app _ (fun s => s ++ [x]) pre bin post)).
        rewrite Hput in *. subst sets. rewrite <- Hl in Hr'.
        destruct (pack_loop w raises pick items (pre ++ (bin ++ [x]) :: post) _ reported) as [sets' rep|y|].
        * destruct IH as [rep' [H1 [H2 H3]]]. exists rep'. split; [assumption|]. split; [|assumption]. constructor; assumption.
        * destruct IH as [p [q [sets' [rep' [H1 [H2 [H3 H4]]]]]]]. exists (x :: p), q, sets', rep'. subst items.
          split; [reflexivity|]. split; [constructor; assumption|]. split; assumption.
        * contradiction.
      + pose proof (Hprop _ _ _ _ Hs Hr) as Hr'. destruct (raises x) eqn:Ex.
        * exists [], items, sets, []. repeat split; try assumption. constructor.
        * specialize (IH sets sums (reported ++ [x]) Hs).
          destruct (pack_loop w raises pick items sets sums (reported ++ [x])) as [sets' rep|y|].
          -- destruct IH as [rep' [H1 [H2 H3]]]. exists (x :: rep'). split; [rewrite H1, <- app_assoc; reflexivity|].
             split; [constructor; assumption|]. intros z [<-|Hz]; [assumption|]. apply H3. assumption.
          -- destruct IH as [p [q [sets' [rep' [H1 [H2 [H3 H4]]]]]]]. exists (x :: p), q, sets', (x :: rep'). subst items.
             split; [reflexivity|]. split; [constructor; assumption|]. split; assumption.
          -- contradiction.
  Qed.

  Lemma same_repeat : forall n, same (repeat 0 n) (map (load w) (repeat [] n)).
  Proof. induction n; cbn; constructor; [reflexivity|assumption]. Qed.
End Loops.

(** ** Results of the fixed-size heuristics *)
Section Fixed.
  Context {A : Type} (w : A -> Q) (cap : Q) (raises : A -> bool).

  (** What a call that follows rule [r] may return. *)
  Definition follows (r : rule) (items : list A) (bins : nat) (res : packing) : Prop :=
    match res with
    | Sets sets rep => run w r items (repeat [] bins) sets rep /\ forall x, In x rep -> raises x = false
    | DidNotFit x => exists pre post sets rep, items = pre ++ x :: post /\ run w r pre (repeat [] bins) sets rep /\
        r (map (load w) sets) (w x) None /\ raises x = true
    | Crash => False
    end.

  Lemma pack_follows : forall pick (r : rule), proper_rule r -> (forall sums c, r sums c (pick sums c)) ->
    (forall loads c i, r loads c (Some i) -> fits cap loads c i) ->
    forall items bins, follows r items bins (pack w raises pick items bins).
  Proof.
    intros pick r H1 H2 H3 items bins. unfold pack.
    pose proof (pack_loop_run w cap raises pick r H1 H2 H3 items (repeat [] bins) (repeat 0 bins) [] (same_repeat w bins)) as H.
    destruct (pack_loop w raises pick items (repeat [] bins) (repeat 0 bins) []) as [s rep|x|]; cbn.
    - destruct H as [rep' [-> [Ha Hb]]]. split; assumption.
    - assumption.
    - assumption.
  Qed.

  Lemma first_fits : forall loads c i, first_rule cap loads c (Some i) -> fits cap loads c i.
  Proof. intros loads c i [H _]. assumption. Qed.
  Lemma worst_fits : forall loads c i, worst_rule cap loads c (Some i) -> fits cap loads c i.
  Proof. intros loads c i [H _]. assumption. Qed.
  Lemma best_fits : forall loads c i, best_rule cap loads c (Some i) -> fits cap loads c i.
  Proof. intros loads c i [H _]. assumption. Qed.
  Lemma almost_fits : forall loads c i, almost_worst_rule cap loads c (Some i) -> fits cap loads c i.
  Proof. intros loads c i [H _]. assumption. Qed.

  Lemma first_follows : forall items bins, follows (first_rule cap) items bins (first_fit w cap raises items bins).
  Proof. apply pack_follows; [apply first_proper|apply pick_first_ok|apply first_fits]. Qed.
  Lemma worst_follows : forall items bins, follows (worst_rule cap) items bins (worst_fit w cap raises items bins).
  Proof. apply pack_follows; [apply worst_proper|apply pick_worst_ok|apply worst_fits]. Qed.
  Lemma almost_follows : forall items bins, follows (almost_worst_rule cap) items bins (almost_worst_fit w cap raises items bins).
  Proof. apply pack_follows; [apply almost_proper|apply pick_almost_ok|apply almost_fits]. Qed.
  Lemma best_follows : forall items bins, (0 < bins)%nat -> follows (best_rule cap) items bins (best_fit w cap raises items bins).
  Proof.
    intros items bins Hb. unfold best_fit. destruct bins; [lia|]. apply pack_follows; [apply best_proper|apply pick_best_ok|apply best_fits].
  Qed.

  Lemma concat_repeat_nil : forall n, concat (repeat (@nil A) n) = [].
  Proof. induction n; cbn; auto. Qed.

  Lemma empty_ok : forall n, 0 <= cap -> Forall (fun b => load w b <= cap) (repeat [] n).
  Proof. intros n H. apply Forall_forall. intros b Hb. apply repeat_spec in Hb. subst. assumption. Qed.

  Lemma follows_facts : forall (r : rule), (forall loads c i, r loads c (Some i) -> fits cap loads c i) ->
    forall items bins sets rep, follows r items bins (Sets sets rep) ->
    Permutation (concat sets ++ rep) items /\ length sets = bins /\ (0 <= cap -> Forall (fun b => load w b <= cap) sets).
  Proof.
    intros r Hr items bins sets rep [H _]. split; [|split].
    - apply run_perm in H. rewrite concat_repeat_nil in H. exact H.
    - apply run_length in H. rewrite repeat_length in H. assumption.
    - intros H0. eapply run_capacity; [exact Hr|exact H|]. apply empty_ok. assumption.
  Qed.

  (** *** next_fit *)
  Lemma advance_spec : forall left cur sum c,
    match advance cap (S left) cur sum c with
    | None => cap < sum + c /\ (left = 0%nat \/ cap < 0 + c)
    | Some (cur', sum') => sum' + c <= cap /\ ((cur' = cur /\ sum' = sum) \/
        (sum' = 0 /\ exists k, cur' = (cur + S k)%nat /\ (k < left)%nat /\ cap < sum + c /\ (k = 0%nat \/ cap < 0 + c)))
    end.
  Proof.
    induction left as [|left IH]; intros cur sum c; cbn [advance].
    - destruct (Qle_bool (sum + c) cap) eqn:E; cbn [negb].
      + apply Qle_bool_iff in E. split; [assumption|]. left. auto.
      + split; [|left; reflexivity]. destruct (Qlt_le_dec cap (sum + c)); [assumption|]. apply Qle_bool_iff in q. congruence.
    - destruct (Qle_bool (sum + c) cap) eqn:E; cbn [negb].
      + apply Qle_bool_iff in E. split; [assumption|]. left. auto.
      + assert (Hc : cap < sum + c) by (destruct (Qlt_le_dec cap (sum + c)); [assumption|]; apply Qle_bool_iff in q; congruence).
        specialize (IH (S cur) 0 c). cbn [advance] in IH.
        destruct (if negb (Qle_bool (0 + c) cap)
          then match left with | 0%nat => None | S _ => advance cap left (S (S cur)) 0 c end
          else Some (S cur, 0)) as [[cur' sum']|].
        * destruct IH as [H1 [[H2 H3]|[H2 [k [H3 [H4 [H5 H6]]]]]]].
          -- split; [assumption|]. right. split; [assumption|]. exists 0%nat. repeat split; try lia; auto.
          -- split; [assumption|]. right. split; [assumption|]. exists (S k). repeat split; try lia; auto.
        * split; [assumption|]. right. tauto.
  Qed.

  Lemma put_app : forall (x : A) pre b post, put (length pre) x (pre ++ b :: post) = pre ++ (b ++ [x]) :: post.
  Proof. intros. exact (update_app _ (fun s => s ++ [x]) pre b post). Qed.

  Definition next_result (res : packing) (out : list (list A)) (rep : list A) : Prop :=
    match rep with
    | [] => res = Sets out []
    | x :: _ => res = if raises x then DidNotFit x else Sets out [x]
    end.

  (** closing [k] bins in a row *)
  Lemma close_many : forall k x items before bin after out rep,
    cap < load w bin + w x -> (k = 0%nat \/ cap < 0 + w x) ->
    next_run w cap (x :: items) (before ++ bin :: repeat [] k) [] after out rep ->
    next_run w cap (x :: items) before bin (S k + after) out rep.
  Proof.
    induction k as [|k IH]; intros x items before bin after out rep H1 H2 H3.
    - apply next_close; assumption.
    - destruct H2 as [H2|H2]; [discriminate|]. cbn [Nat.add]. apply next_close; [assumption|].
      apply IH; [exact H2|right; assumption|]. rewrite <- app_assoc. exact H3.
  Qed.

  Lemma repeat_snoc : forall k, repeat (@nil A) (S k) = repeat [] k ++ [[]].
  Proof. induction k; [reflexivity|]. cbn in *. f_equal. exact IHk. Qed.

  Lemma next_fit_loop_run : forall items before bin after sum, sum == load w bin ->
    exists out rep, next_run w cap items before bin after out rep /\
      next_result (next_fit_loop w cap raises (length before + S after) items (before ++ bin :: repeat [] after) (length before) sum) out rep.
  Proof.
    induction items as [|x items IH]; intros before bin after sum Hs; cbn [next_fit_loop].
    - eexists _, _. split; [apply next_done|reflexivity].
    - replace (length before + S after - length before)%nat with (S after) by lia.
      pose proof (advance_spec after (length before) sum (w x)) as Ha.
      destruct (advance cap (S after) (length before) sum (w x)) as [[cur sum']|].
      + destruct Ha as [H1 [[-> ->]|[-> [k [-> [H3 [H4 H5]]]]]]].
        * rewrite put_app. destruct (IH before (bin ++ [x]) after (sum + w x)) as [out [rep [R1 R2]]].
          { rewrite load_app. cbn. rewrite Hs. ring. }
          exists out, rep. split; [|assumption]. apply next_here; [|assumption]. rewrite <- Hs. assumption.
        * set (before' := before ++ bin :: repeat [] k).
          assert (Hl : length before' = (length before + S k)%nat).
          { unfold before'. rewrite app_length. cbn. rewrite repeat_length. lia. }
          assert (Hsets : before ++ bin :: repeat [] after = before' ++ [] :: repeat [] (after - S k)).
          { unfold before'. rewrite <- app_assoc. cbn [app]. f_equal. f_equal.
            replace after with (k + S (after - S k))%nat at 1 by lia. rewrite repeat_app. reflexivity. }
          rewrite Hsets. rewrite <- Hl. rewrite put_app.
          destruct (IH before' [x] (after - S k)%nat (0 + w x)) as [out [rep [R1 R2]]]; [cbn; ring|].
          exists out, rep. split.
          -- replace after with (S k + (after - S k))%nat by lia.
             apply close_many; [rewrite <- Hs; assumption|assumption|]. apply next_here; [cbn; assumption|assumption].
          -- replace (length before + S after)%nat with (length before' + S (after - S k))%nat by lia. exact R2.
      + destruct Ha as [H1 H2]. exists (before ++ bin :: repeat [] after), [x]. split.
        * rewrite Hs in H1. destruct after as [|after]; [apply next_stop; assumption|].
          replace (S after) with (S after + 0)%nat at 1 by lia. apply close_many; [assumption| |].
          -- destruct H2 as [H2|H2]; [discriminate|right; assumption].
          -- destruct H2 as [H2|H2]; [discriminate|]. rewrite repeat_snoc.
             change (before ++ bin :: repeat [] after ++ [[]]) with (before ++ (bin :: repeat [] after) ++ [[]]).
             rewrite app_assoc. apply next_stop. exact H2.
        * cbn. reflexivity.
  Qed.

  Lemma next_fit_run : forall items bins, (0 < bins)%nat -> exists out rep,
    next_run w cap items [] [] (bins - 1) out rep /\ next_result (next_fit w cap raises items bins) out rep.
  Proof.
    intros items bins Hb. destruct bins as [|n]; [lia|].
    destruct (next_fit_loop_run items [] [] n 0 (Qeq_refl 0)) as [out [rep [H1 H2]]].
    exists out, rep. split; [replace (S n - 1)%nat with n by lia; assumption|].
    unfold next_fit. cbn [length app Nat.add] in H2. exact H2.
  Qed.

  Lemma next_run_facts : forall items before bin after out rep, next_run w cap items before bin after out rep ->
    (exists rest, concat before ++ bin ++ items = concat out ++ rep ++ rest /\ (rep = [] -> rest = [])) /\
    length out = (length before + S after)%nat /\ (length rep <= 1)%nat /\
    (Forall (fun b => load w b <= cap) (before ++ [bin]) -> 0 <= cap -> Forall (fun b => load w b <= cap) out).
  Proof.
    induction 1 as [before bin after|x items before bin after out rep Hc Hr IH|x items before bin after out rep Hc Hr IH|x items before bin Hc].
    - split; [|split; [|split]].
      + exists []. split; [|reflexivity]. rewrite concat_app. cbn. rewrite concat_repeat_nil, !app_nil_r. reflexivity.
      + rewrite app_length. cbn. rewrite repeat_length. reflexivity.
      + cbn. lia.
      + intros HF H0. apply Forall_app in HF. destruct HF as [F1 F2]. inv F2. apply Forall_app. split; [assumption|].
        constructor; [assumption|]. apply empty_ok. assumption.
    - destruct IH as [[rest [E1 E2]] [E3 [E4 E5]]]. split; [|split; [|split]]; try assumption.
      + exists rest. split; [|assumption]. rewrite <- E1, <- !app_assoc. reflexivity.
      + intros HF H0. apply E5; [|assumption]. apply Forall_app in HF. destruct HF as [F1 _]. apply Forall_app. split; [assumption|].
        constructor; [|constructor]. rewrite load_app. cbn. lra.
    - destruct IH as [[rest [E1 E2]] [E3 [E4 E5]]]. split; [|split; [|split]]; try assumption.
      + exists rest. split; [|assumption]. rewrite <- E1, concat_app. cbn. rewrite app_nil_r, <- !app_assoc. reflexivity.
      + rewrite E3, app_length. cbn. lia.
      + intros HF H0. apply E5; [|assumption]. apply Forall_app. split; [assumption|]. constructor; [exact H0|constructor].
    - split; [|split; [|split]].
      + exists items. split; [|discriminate]. rewrite concat_app. cbn. rewrite app_nil_r, <- !app_assoc. reflexivity.
      + rewrite app_length. cbn. lia.
      + cbn. lia.
      + intros HF _. assumption.
  Qed.

  (** *** best_fit opening bins on demand *)
  Lemma grow_run : forall items sets sums, same sums (map (load w) sets) ->
    exists out, best_fit_grow w cap items sets sums = Sets out [] /\ grow w (best_rule cap) items sets out.
  Proof.
    induction items as [|x items IH]; intros sets sums Hs; cbn [best_fit_grow].
    - exists sets. split; [reflexivity|constructor].
    - pose proof (best_proper cap _ _ _ _ Hs (pick_best_ok cap sums (w x))) as Hr.
      destruct (pick_best cap sums (w x)) as [i|].
      + destruct (best_fits _ _ _ Hr) as [l [El _]].
        assert (Hi : (i < length sets)%nat).
        { rewrite <- (map_length (load w)). apply nth_error_Some. congruence. }
        destruct (nth_split' _ sets i Hi) as [pre [bin [post [E Hl]]]].
        destruct (IH (put i x sets) _ (update_same w x sets sums i Hs)) as [out [E1 E2]]. exists out. split; [assumption|].
        subst sets i. rewrite put_app in E2. constructor; assumption.
      + destruct (IH (sets ++ [[x]]) (sums ++ [w x])) as [out [E1 E2]].
        { rewrite map_app. apply Forall2_app; [assumption|]. constructor; [cbn; ring|constructor]. }
        exists out. split; [assumption|]. apply grow_open; assumption.
  Qed.

  Lemma grow_facts : forall items bins out, grow w (best_rule cap) items bins out ->
    Permutation (concat out) (concat bins ++ items) /\ (length bins <= length out)%nat /\
    (Forall (fun b => load w b <= cap \/ exists x, b = [x] /\ cap < w x) bins ->
     Forall (fun b => load w b <= cap \/ exists x, b = [x] /\ cap < w x) out).
  Proof.
    induction 1 as [bins|x items pre bin post bins' Hr Hg IH|x items bins bins' Hr Hg IH].
    - rewrite app_nil_r. auto.
    - destruct IH as [H1 [H2 H3]]. split; [|split].
      + etransitivity; [exact H1|]. rewrite !concat_app. cbn [concat]. rewrite <- !app_assoc. cbn [app].
        apply Permutation_app_head. apply Permutation_app_head. apply Permutation_middle.
      + rewrite app_length in *. cbn [length] in *. lia.
      + intros HF. apply H3. apply Forall_app in HF. destruct HF as [F1 F2]. inv F2. apply Forall_app. split; [assumption|].
        constructor; [|assumption]. left. destruct (best_fits _ _ _ Hr) as [l [E1 E2]].
        rewrite map_app in E1. rewrite nth_error_app2 in E1 by (rewrite map_length; lia).
        rewrite map_length, Nat.sub_diag in E1. cbn in E1. inv E1. rewrite load_app. cbn. lra.
    - destruct IH as [H1 [H2 H3]]. split; [|split].
      + etransitivity; [exact H1|]. rewrite concat_app. cbn. rewrite <- app_assoc. reflexivity.
      + rewrite app_length in H2. lia.
      + intros HF. apply H3. apply Forall_app. split; [assumption|]. constructor; [|constructor].
        destruct (Qlt_le_dec cap (w x)); [right; exists x; auto|left; cbn; lra].
  Qed.
End Fixed.

(** ** any_fit *)
Section Any.
  Context {A : Type} (w : A -> Q) (cap : Q).

  Definition total_packing (items : list A) (bins : nat) (sets : list (list A)) : Prop :=
    Permutation (concat sets) items /\ length sets = bins /\ (0 <= cap -> Forall (fun b => load w b <= cap) sets).

  Lemma strict_total : forall (r : rule), (forall loads c i, r loads c (Some i) -> fits cap loads c i) ->
    forall items bins res, follows w (fun _ => true) r items bins res ->
    match res with Sets sets rep => rep = [] /\ total_packing items bins sets | DidNotFit x => In x items | Crash => False end.
  Proof.
    intros r Hr items bins [sets rep|x|] H; [| |contradiction].
    - assert (rep = []) as ->. { destruct H as [_ H]. destruct rep as [|x rep]; [reflexivity|]. specialize (H x (or_introl eq_refl)). discriminate. }
      split; [reflexivity|]. destruct (follows_facts w cap _ r Hr items bins sets [] H) as [H1 H2]. rewrite app_nil_r in H1. split; assumption.
    - destruct H as [pre [post [? [? [-> _]]]]]. apply in_or_app. right. left. reflexivity.
  Qed.

  Lemma next_total : forall raises items bins, (0 < bins)%nat ->
    match next_fit w cap raises items bins with
    | Sets sets [] => total_packing items bins sets
    | Sets sets [x] => raises x = false /\ length sets = bins /\ (0 <= cap -> Forall (fun b => load w b <= cap) sets) /\
        exists rest, items = concat sets ++ x :: rest
    | Sets _ _ => False
    | DidNotFit x => raises x = true /\ In x items
    | Crash => False
    end.
  Proof.
    intros raises items bins Hb. destruct (next_fit_run w cap raises items bins Hb) as [out [rep [H1 H2]]].
    apply next_run_facts in H1. destruct H1 as [[rest [E1 E2]] [E3 [E4 E5]]]. cbn [concat app length] in *.
    assert (E3' : length out = bins) by lia.
    assert (E5' : 0 <= cap -> Forall (fun b => load w b <= cap) out) by (intros H0; apply E5; [constructor; [exact H0|constructor]|assumption]).
    destruct rep as [|x [|y rep]]; [| |cbn in E4; lia]; cbn in H2.
    - rewrite H2. rewrite (E2 eq_refl) in E1. cbn in E1. rewrite app_nil_r in E1. subst. split; [reflexivity|split; [reflexivity|assumption]].
    - rewrite H2. destruct (raises x) eqn:Ex.
      + split; [assumption|]. rewrite E1. apply in_or_app. right. left. reflexivity.
      + repeat split; try assumption. exists rest. exact E1.
  Qed.

  Lemma heuristics_total : forall items bins, (0 < bins)%nat -> Forall (fun h : list A -> nat -> packing =>
    match h items bins with Sets sets rep => rep = [] /\ total_packing items bins sets | DidNotFit x => In x items | Crash => False end)
    (heuristics w cap).
  Proof.
    intros items bins Hb. unfold heuristics. repeat constructor.
    - pose proof (next_total (fun _ => true) items bins Hb) as H.
      destruct (next_fit w cap (fun _ => true) items bins) as [s [|x [|y r]]|x|]; try contradiction.
      + split; [reflexivity|assumption].
      + destruct H as [H _]. discriminate.
      + tauto.
    - eapply strict_total; [apply first_fits|apply first_follows].
    - eapply strict_total; [apply worst_fits|apply worst_follows].
    - eapply strict_total; [apply almost_fits|apply almost_follows].
    - eapply strict_total; [apply best_fits|apply best_follows; assumption].
  Qed.

  Lemma try_all_spec : forall hs items bins last, (hs <> [] \/ exists x, last = DidNotFit x /\ In x items) ->
    Forall (fun h : list A -> nat -> packing =>
      match h items bins with Sets sets rep => rep = [] /\ total_packing items bins sets | DidNotFit x => In x items | Crash => False end) hs ->
    (exists h sets, In h hs /\ h items bins = Sets sets [] /\ try_all hs items bins last = Sets sets [] /\ total_packing items bins sets) \/
    ((forall h, In h hs -> exists x, h items bins = DidNotFit x) /\ exists x, try_all hs items bins last = DidNotFit x /\ In x items).
  Proof.
    induction hs as [|h hs IH]; intros items bins last Hl HF; cbn [try_all].
    - right. split; [intros ? []|]. destruct Hl as [Hl|[x [-> Hx]]]; [contradiction|]. exists x. auto.
    - inv HF. destruct (h items bins) as [s rep|x|] eqn:E; [| |contradiction].
      + destruct H1 as [-> H1]. left. exists h, s. repeat split; try apply H1; try assumption. left. reflexivity.
      + destruct (IH items bins (DidNotFit x)) as [[h' [s [G1 [G2 [G3 G4]]]]]|[G1 G2]]; try assumption.
        * right. exists x. auto.
        * left. exists h', s. repeat split; try apply G4; try assumption. right. assumption.
        * right. split; [|assumption]. intros h' [<-|Hh]; [exists x; assumption|]. apply G1. assumption.
  Qed.

  Lemma any_fit_spec : forall raises items bins, (0 < bins)%nat ->
    (exists h sets, In h (heuristics w cap) /\ h items bins = Sets sets [] /\
       any_fit w cap raises items bins = Sets sets [] /\ total_packing items bins sets) \/
    ((forall h, In h (heuristics w cap) -> exists x, h items bins = DidNotFit x) /\
     ((exists x, any_fit w cap raises items bins = DidNotFit x /\ In x items /\ raises x = true) \/
      (exists sets x y, any_fit w cap raises items bins = Sets sets [x; y] /\ In x items /\
         length sets = bins /\ (0 <= cap -> Forall (fun b => load w b <= cap) sets) /\
         exists rest, items = concat sets ++ y :: rest))).
  Proof.
    intros raises items bins Hb.
    destruct (try_all_spec (heuristics w cap) items bins Crash) as [[h [s [G1 [G2 [G3 G4]]]]]|[G1 [x [G2 G3]]]].
    - left. discriminate.
    - apply heuristics_total. assumption.
    - left. exists h, s. repeat split; try apply G4; try assumption. unfold any_fit. rewrite G3. reflexivity.
    - right. split; [assumption|]. unfold any_fit. rewrite G2. destruct (raises x) eqn:Ex.
      + left. exists x. auto.
      + pose proof (next_total raises items bins Hb) as H. destruct (next_fit w cap raises items bins) as [s rep|y|] eqn:EN.
        * right. exists s, x. destruct rep as [|y [|z rep]]; [| |contradiction].
          -- exfalso. specialize (G1 (next_fit w cap (fun _ => true))). destruct G1 as [y Hy]; [left; reflexivity|].
             (* next_fit succeeded without a report, so it also does with a raising callback *)
             assert (Hnr : forall its st cur sm, next_fit_loop w cap raises bins its st cur sm = Sets s [] ->
                       next_fit_loop w cap (fun _ => true) bins its st cur sm = Sets s []).
             { induction its as [|z its IHi]; intros st cur sm E; cbn in *; [assumption|].
               destruct (advance cap (bins - cur) cur sm (w z)) as [[c' s']|]; [apply IHi; assumption|]. destruct (raises z); discriminate. }
             unfold next_fit in *. destruct bins as [|n]; [lia|]. rewrite (Hnr _ _ _ _ EN) in Hy. discriminate.
          -- destruct H as [H1 [H2 [H3 [rest H4]]]]. exists y. split; [reflexivity|]. split; [assumption|].
             split; [assumption|]. split; [assumption|]. exists rest. assumption.
        * left. exists y. destruct H. auto.
        * contradiction.
  Qed.
End Any.
