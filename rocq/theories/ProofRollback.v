From Coq Require Import QArith List Bool Arith Lia Lqa Permutation.
From Verif Require Import Base ModelBinpack SpecBinpack ProofBinpack ModelRollback SpecRollback.
Import ListNotations.
Open Scope Q_scope.

(** ** Lists *)
Lemma update_length : forall B (f : B -> B) l i, length (update i f l) = length l.
Proof. induction l; destruct i; cbn; auto. Qed.
Lemma update_nth_same : forall B (f : B -> B) l i, nth_error (update i f l) i = option_map f (nth_error l i).
Proof. induction l; destruct i; cbn; auto. Qed.
Lemma update_nth_other : forall B (f : B -> B) l i j, i <> j -> nth_error (update i f l) j = nth_error l j.
Proof. induction l; intros i j H; [destruct i; reflexivity|]. destruct i, j; cbn; auto; try congruence. Qed.
Lemma update_update : forall B (f g : B -> B) l i, update i f (update i g l) = update i (fun x => f (g x)) l.
Proof. induction l; destruct i; cbn; auto. rewrite IHl. reflexivity. Qed.
Lemma update_id : forall B (f : B -> B) l i, (forall b, nth_error l i = Some b -> f b = b) -> update i f l = l.
Proof.
  induction l; destruct i; intros H; cbn; auto; [rewrite H; reflexivity|]. rewrite IHl; [reflexivity|]. exact H.
Qed.
Lemma map_update : forall B C (h : B -> C) (f : B -> B) (g : C -> C) l i, (forall b, nth_error l i = Some b -> h (f b) = g (h b)) ->
  map h (update i f l) = update i g (map h l).
Proof.
  induction l; destruct i; intros H; cbn; auto; [rewrite H; reflexivity|]. rewrite IHl; [reflexivity|]. exact H.
Qed.
Lemma nth_error_ext : forall B (l l' : list B), (forall i, nth_error l i = nth_error l' i) -> l = l'.
Proof.
  induction l as [|x l IH]; intros [|y l'] H; auto.
  - specialize (H O). discriminate.
  - specialize (H O). discriminate.
  - pose proof (H O) as H0. cbn in H0. inv H0. f_equal. apply IH. intros i. exact (H (S i)).
Qed.
Lemma update_ext : forall B (f g : B -> B) l i, (forall b, nth_error l i = Some b -> f b = g b) -> update i f l = update i g l.
Proof.
  induction l; destruct i; intros H; cbn; auto; [rewrite H; reflexivity|]. rewrite (IHl i); [reflexivity|]. exact H.
Qed.
Lemma update_split : forall B (f : B -> B) l i b, nth_error l i = Some b -> exists pre post,
  length pre = i /\ l = pre ++ b :: post /\ update i f l = pre ++ f b :: post.
Proof.
  intros B f l i b H. destruct (nth_error_split _ _ H) as [pre [post [E1 E2]]]. exists pre, post. split; [assumption|]. split; [assumption|].
  rewrite E1, <- E2. apply update_app.
Qed.
Lemma update_none : forall B (f : B -> B) l i, nth_error l i = None -> update i f l = l.
Proof. intros. apply update_id. intros b Hb. congruence. Qed.

Lemma map_removelast : forall B C (f : B -> C) l, map f (removelast l) = removelast (map f l).
Proof.
  induction l as [|a l IH]; [reflexivity|]. destruct l as [|b l]; [reflexivity|].
  change (f a :: map f (removelast (b :: l)) = f a :: removelast (map f (b :: l))). rewrite IH. reflexivity.
Qed.

Lemma Forall2_nth_error_intro : forall B C (R : B -> C -> Prop) l l', length l = length l' ->
  (forall j b c, nth_error l j = Some b -> nth_error l' j = Some c -> R b c) -> Forall2 R l l'.
Proof.
  induction l as [|b l IH]; intros [|c l'] HL H; try discriminate; constructor.
  - apply (H O); reflexivity.
  - apply IH; [cbn in HL; lia|]. intros j. apply (H (S j)).
Qed.

Lemma and_assoc_swap : forall P Q R : Prop, (P /\ Q /\ R) <-> (R /\ P /\ Q).
Proof. tauto. Qed.

Section R.
  Context {A K : Type} (size : A -> Q) (ductile : bool) (upd : A -> list A -> A -> A) (det : A -> list A -> A)
    (G : list (list A) -> bool) (ident : A -> K).
  Hypothesis upd_ident : forall x l o, ident (upd x l o) = ident o.
  Hypothesis det_ident : forall x l, ident (det x l) = ident x.

  Notation assign := (assign ductile upd det).
  Notation rollback := (@rollback A ductile).
  Notation validate := (validate size G).
  Notation try_to_add := (try_to_add size ductile upd det G).
  Notation infeasible := (infeasible_to_fit size).

  Definition see (b : @bin A) : Q * list A := (max_capacity b, items b).
  Definition views (bs : list (@bin A)) := map see bs.

  Lemma sum_sizes_load : forall l, sum_sizes size l = load size l.
  Proof. induction l as [|a l IH]; [reflexivity|]. cbn [load]. rewrite <- IH. reflexivity. Qed.

  Lemma contents_views : forall bs, contents bs = map snd (views bs).
  Proof. intros. unfold contents, views. rewrite map_map. reflexivity. Qed.

  (** assigning one bin *)
  Lemma assign_spec : forall bs i x bs' x' b, assign bs i x = (bs', x') -> nth_error bs i = Some b ->
    exists b', bs' = update i (fun _ => b') bs /\ max_capacity b' = max_capacity b /\
      items (rollback b') = items b /\ max_capacity (rollback b') = max_capacity b /\
      map ident (items b') = map ident (items b) ++ [ident x] /\ ident x' = ident x /\
      (exists l, items b' = l ++ [x']) /\
      (ductile = false -> x' = x /\ b' = Bin (max_capacity b) (items b ++ [x]) (saved_items b)) /\
      (ductile = true -> saved_items b' = Some (items b)).
  Proof.
    intros bs i x bs' x' b H E. unfold ModelRollback.assign in H. rewrite E in H.
    unfold temporary_assign, prepare, ModelRollback.rollback in *. destruct ductile.
    - cbn in H. inv H. eexists. split; [reflexivity|]. cbn. repeat split; try reflexivity; try discriminate.
      + rewrite map_app, map_map. cbn. rewrite det_ident. f_equal. apply map_ext. intros. apply upd_ident.
      + apply det_ident.
      + eexists. reflexivity.
    - inv H. eexists. split; [reflexivity|]. cbn. repeat split; try reflexivity; try discriminate.
      + apply removelast_last.
      + rewrite map_app. reflexivity.
      + eexists. reflexivity.
  Qed.

  Lemma assign_none : forall bs i x, nth_error bs i = None -> assign bs i x = (bs, x).
  Proof. intros bs i x E. unfold ModelRollback.assign. rewrite E. reflexivity. Qed.

  Lemma assign_rollback : forall bs i x bs' x', assign bs i x = (bs', x') ->
    views (update i rollback bs') = views bs /\ ident x' = ident x.
  Proof.
    intros bs i x bs' x' H. destruct (nth_error bs i) as [b|] eqn:E.
    - destruct (assign_spec _ _ _ _ _ _ H E) as [b' [-> [H1 [H2 [H3 [_ [H4 _]]]]]]]. split; [|assumption].
      rewrite update_update. unfold views. rewrite (map_update _ _ see _ (fun s => s)).
      + apply update_id. reflexivity.
      + intros b0 Hb0. rewrite E in Hb0. inv Hb0. unfold see. rewrite H2, H3. reflexivity.
    - rewrite assign_none in H by assumption. inv H. split; [|reflexivity]. rewrite update_none by assumption. reflexivity.
  Qed.

  Lemma assign_added : forall bs i x bs' x', assign bs i x = (bs', x') -> validate bs' i = true ->
    added_at size ident i (ident x) (views bs) (views bs') /\ G (contents bs') = true /\ ident x' = ident x /\
    (ductile = false -> x' = x /\ exists b, nth_error bs i = Some b /\
       bs' = update i (fun b => Bin (max_capacity b) (items b ++ [x]) (saved_items b)) bs).
  Proof.
    intros bs i x bs' x' H V. unfold ModelRollback.validate in V. destruct (nth_error bs i) as [b|] eqn:E.
    - destruct (assign_spec _ _ _ _ _ _ H E) as [b' [-> [H1 [H2 [H3 [H4 [H5 [_ [H6 _]]]]]]]]].
      rewrite update_nth_same, E in V. cbn in V. apply andb_prop in V. destruct V as [V1 V2]. apply Qle_bool_iff in V1.
      destruct (update_split _ (fun _ => b') bs i b E) as [pre [post [L1 [L2 L3]]]].
      split; [|split; [assumption|split; [assumption|]]].
      + exists (views pre), (max_capacity b), (items b), (items b'), (views post).
        unfold views. split; [rewrite map_length; assumption|]. split; [rewrite L2 at 1; rewrite map_app; reflexivity|].
        split; [rewrite L3, map_app; cbn; unfold see at 2; rewrite H1; reflexivity|]. split; [assumption|].
        rewrite <- sum_sizes_load, <- H1. assumption.
      + intros Hd. destruct (H6 Hd) as [-> ->]. split; [reflexivity|]. exists b. split; [reflexivity|].
        apply update_ext. intros b0 Hb0. rewrite E in Hb0. inv Hb0. reflexivity.
    - rewrite assign_none in H by assumption. inv H. rewrite E in V. discriminate.
  Qed.

  Lemma commit_id : forall bs i, update i (@commit A) bs = bs.
  Proof. intros. apply update_id. reflexivity. Qed.

  Lemma try_to_add_spec : forall bs i x ok bs' x', try_to_add bs i x = (ok, bs', x') ->
    ident x' = ident x /\
    if ok then added_at size ident i (ident x) (views bs) (views bs') /\ G (contents bs') = true
    else views bs' = views bs.
  Proof.
    intros bs i x ok bs' x' H. unfold ModelRollback.try_to_add in H. destruct (assign bs i x) as [bs1 x1] eqn:E.
    destruct (validate bs1 i) eqn:V; inv H.
    - destruct (assign_added _ _ _ _ _ E V) as [H1 [H2 [H3 _]]]. rewrite commit_id. auto.
    - destruct (assign_rollback _ _ _ _ _ E). auto.
  Qed.

  Lemma try_no_commit_spec : forall bs i x ok bs' x', try_to_add_no_commit size ductile upd det G bs i x = (ok, bs', x') ->
    ident x' = ident x /\
    if ok then added_at size ident i (ident x) (views bs) (views bs') /\ G (contents bs') = true
    else views bs' = views bs.
  Proof.
    intros bs i x ok bs' x' H. unfold ModelRollback.try_to_add_no_commit in H. destruct (assign bs i x) as [bs1 x1] eqn:E.
    destruct (validate bs1 i) eqn:V; inv H.
    - destruct (assign_added _ _ _ _ _ E V) as [H1 [H2 [H3 _]]]. auto.
    - destruct (assign_rollback _ _ _ _ _ E). auto.
  Qed.

  Lemma try_bins_spec : forall idxs bs x ok bs' x', try_bins size ductile upd det G idxs bs x = (ok, bs', x') ->
    ident x' = ident x /\
    if ok then added size ident (ident x) (views bs) (views bs') /\ G (contents bs') = true else views bs' = views bs.
  Proof.
    induction idxs as [|i r IH]; intros bs x ok bs' x' H; cbn [try_bins] in H; [inv H; auto|].
    destruct (nth_error bs i) as [b|]; [|apply IH; assumption].
    destruct (infeasible b x); [apply IH; assumption|].
    destruct (try_to_add bs i x) as [[ok1 bs1] x1] eqn:E. apply try_to_add_spec in E. destruct E as [E1 E2]. destruct ok1.
    - inv H. split; [assumption|]. split; [exists i|]; apply E2.
    - apply IH in H. rewrite E1, E2 in H. assumption.
  Qed.

  Lemma try_next_spec : forall n cur bs x ok bs' x' cur', try_next size ductile upd det G n cur bs x = (ok, bs', x', cur') ->
    (cur <= cur')%nat /\ ident x' = ident x /\
    if ok then added_at size ident cur' (ident x) (views bs) (views bs') /\ G (contents bs') = true else views bs' = views bs.
  Proof.
    induction n as [|n IH]; intros cur bs x ok bs' x' cur' H; cbn [try_next] in H; [inv H; auto|].
    destruct (nth_error bs cur) as [b|]; [|inv H; auto].
    destruct (infeasible b x).
    - apply IH in H. destruct H. split; [lia|assumption].
    - destruct (try_to_add bs cur x) as [[ok1 bs1] x1] eqn:E. apply try_to_add_spec in E. destruct E as [E1 E2]. destruct ok1.
      + inv H. split; [lia|]. auto.
      + apply IH in H. rewrite E1, E2 in H. destruct H. split; [lia|assumption].
  Qed.

  (** ** FitBased *)
  (** Relation between a bin before the item was offered and now. *)
  Definition tentative (x : A) (b0 b : @bin A) : Prop :=
    max_capacity b = max_capacity b0 /\ map ident (items b) = map ident (items b0) ++ [ident x] /\
    items (rollback b) = items b0 /\
    (ductile = false -> b = Bin (max_capacity b0) (items b0 ++ [x]) (saved_items b0)).

  Definition fit_inv (x : A) (bs0 bs : list (@bin A)) (packed : list nat) : Prop :=
    length bs = length bs0 /\
    forall j b0 b, nth_error bs0 j = Some b0 -> nth_error bs j = Some b ->
      if in_dec Nat.eq_dec j packed then tentative x b0 b
      else see b = see b0 /\ (ductile = false -> b = b0).

  Lemma rollback_cap : forall b, max_capacity (rollback b) = max_capacity b.
  Proof. intros b. unfold ModelRollback.rollback. destruct ductile; reflexivity. Qed.

  Lemma refresh_tentative : forall x x' b0 b, ident x' = ident x -> (ductile = false -> x' = x) ->
    tentative x b0 b -> tentative x' b0 (refresh x' b).
  Proof.
    intros x x' b0 b Hi Hx [H1 [H2 [H3 H4]]]. split; [exact H1|]. split; [|split].
    - cbn. rewrite map_app. rewrite map_removelast, H2, removelast_last. cbn. reflexivity.
    - rewrite <- H3. unfold ModelRollback.rollback, refresh. destruct ductile; cbn; [reflexivity|]. apply removelast_last.
    - intros Hd. rewrite (Hx Hd), (H4 Hd). unfold refresh. cbn. rewrite removelast_last. reflexivity.
  Qed.

  Lemma refresh_all_length : forall packed (x : A) bs, length (refresh_all packed x bs) = length bs.
  Proof. induction packed as [|i r IH]; intros x bs; cbn; [reflexivity|]. unfold refresh_all in IH. rewrite IH. apply update_length. Qed.

  Lemma refresh_all_nth : forall packed (x : A) bs j, NoDup packed -> nth_error (refresh_all packed x bs) j =
    if in_dec Nat.eq_dec j packed then option_map (refresh x) (nth_error bs j) else nth_error bs j.
  Proof.
    induction packed as [|i r IH]; intros x bs j ND; [reflexivity|]. inv ND. cbn [refresh_all fold_left].
    fold (refresh_all r x (update i (refresh x) bs)). rewrite IH by assumption.
    destruct (in_dec Nat.eq_dec j r) as [Hj|Hj]; destruct (in_dec Nat.eq_dec j (i :: r)) as [Hj'|Hj']; cbn in Hj'.
    - rewrite update_nth_other; [reflexivity|]. intro; subst; contradiction.
    - tauto.
    - destruct Hj' as [->|?]; [|contradiction]. apply update_nth_same.
    - apply update_nth_other. intro; subst; tauto.
  Qed.

  Lemma fit_loop_spec : forall candidates packed bs x packed' bs' x' bs0,
    fit_loop size ductile upd det G candidates packed bs x = (packed', bs', x') ->
    NoDup (packed ++ candidates) -> (forall j, In j (packed ++ candidates) -> nth_error bs0 j <> None) ->
    fit_inv x bs0 bs packed ->
    fit_inv x' bs0 bs' packed' /\ ident x' = ident x /\ (ductile = false -> x' = x) /\ NoDup packed' /\
    (forall j, In j packed' -> In j (packed ++ candidates)) /\
    (exists more, packed' = packed ++ more) /\
    (forall j, In j packed' -> ~ In j packed -> ductile = false -> exists bs1 pk, ~ In j pk /\ fit_inv x bs0 bs1 (j :: pk) /\ validate bs1 j = true).
  Proof.
    induction candidates as [|i r IH]; intros packed bs x packed' bs' x' bs0 H ND HE Hinv; cbn [fit_loop] in H.
    - inv H. rewrite app_nil_r in *. split; [assumption|]. split; [reflexivity|]. split; [reflexivity|]. split; [assumption|]. split; [tauto|].
      split; [exists []; rewrite app_nil_r; reflexivity|]. tauto.
    - destruct (assign bs i x) as [bs1 x1] eqn:E.
      destruct (nth_error bs0 i) as [b0|] eqn:E0; [|exfalso; apply (HE i); [apply in_or_app; right; left; reflexivity|assumption]].
      assert (Hnb : exists b, nth_error bs i = Some b).
      { destruct (nth_error bs i) as [b|] eqn:Eb; [exists b; reflexivity|]. exfalso. apply nth_error_None in Eb. destruct Hinv as [Hl _].
        assert (i < length bs0)%nat by (apply nth_error_Some; congruence). lia. }
      destruct Hnb as [b Eb].
      assert (Hni : ~ In i packed). { apply NoDup_remove_2 in ND. intro F. apply ND. apply in_or_app. left. assumption. }
      assert (NDp : NoDup packed). { clear -ND. induction packed; [constructor|]. inv ND. constructor; [|auto]. intro F. apply H1. apply in_or_app. left. assumption. }
      destruct (assign_spec _ _ _ _ _ _ E Eb) as [b' [-> [A1 [A2 [A3 [A4 [A5 [_ [A6 A7]]]]]]]]].
      assert (Hx : ductile = false -> x1 = x) by (intro Hd; apply A6; assumption).
      set (bs2 := refresh_all packed x1 (update i (fun _ => b') bs)) in *.
      assert (Hb0 : see b = see b0 /\ (ductile = false -> b = b0)).
      { destruct Hinv as [_ Hinv]. specialize (Hinv i b0 b E0 Eb). destruct (in_dec Nat.eq_dec i packed); [contradiction|assumption]. }
      destruct Hb0 as [Hsee Hbb]. unfold see in Hsee. inversion Hsee as [[Hs1 Hs2]].
      assert (N2 : nth_error bs2 i = Some b').
      { unfold bs2. rewrite refresh_all_nth by assumption. destruct (in_dec Nat.eq_dec i packed); [contradiction|].
        rewrite update_nth_same, Eb. reflexivity. }
      assert (Hinv2 : fit_inv x1 bs0 bs2 (packed ++ [i])).
      { destruct Hinv as [Hl Hinv]. split; [unfold bs2; rewrite refresh_all_length, update_length; assumption|].
        intros j c0 c Hc0 Hc. destruct (Nat.eq_dec j i) as [->|Hji].
        - destruct (in_dec Nat.eq_dec i (packed ++ [i])) as [_|F]; [|exfalso; apply F; apply in_or_app; right; left; reflexivity].
          rewrite N2 in Hc. inv Hc. rewrite E0 in Hc0. inv Hc0. split; [congruence|]. split; [rewrite A4, A5, Hs2; reflexivity|].
          split; [rewrite A2; assumption|]. intros Hd. rewrite (Hx Hd). destruct (A6 Hd) as [_ ->]. rewrite (Hbb Hd). reflexivity.
        - unfold bs2 in Hc. rewrite refresh_all_nth, update_nth_other in Hc by (assumption || congruence).
          destruct (in_dec Nat.eq_dec j packed) as [Hj|Hj].
          + destruct (in_dec Nat.eq_dec j (packed ++ [i])) as [_|F]; [|exfalso; apply F; apply in_or_app; left; assumption].
            destruct (nth_error bs j) as [c1|] eqn:Ec1; [|discriminate]. cbn in Hc. inv Hc.
            specialize (Hinv j c0 c1 Hc0 Ec1). destruct (in_dec Nat.eq_dec j packed); [|contradiction].
            apply refresh_tentative with x; assumption.
          + destruct (in_dec Nat.eq_dec j (packed ++ [i])) as [F|_]; [apply in_app_or in F; destruct F as [F|[F|[]]]; congruence|].
            specialize (Hinv j c0 c Hc0 Hc). destruct (in_dec Nat.eq_dec j packed); [contradiction|assumption]. }
      assert (Happ : packed ++ i :: r = (packed ++ [i]) ++ r) by (rewrite <- app_assoc; reflexivity).
      destruct (validate bs2 i) eqn:V.
      + rewrite Happ in ND, HE. destruct (IH _ _ _ _ _ _ bs0 H ND HE Hinv2) as [I1 [I2 [I3 [I4 [I5 [[more I6] I7]]]]]].
        split; [assumption|]. split; [congruence|]. split; [intro Hd; rewrite (I3 Hd); auto|]. split; [assumption|].
        split; [rewrite Happ; assumption|]. split; [exists (i :: more); rewrite I6, <- app_assoc; reflexivity|].
        intros j Hj Hnj Hd. destruct (Nat.eq_dec j i) as [->|Hji].
        * exists bs2, packed. split; [assumption|]. split; [|assumption]. rewrite <- (Hx Hd).
          destruct Hinv2 as [L2 Hinv2]. split; [assumption|]. intros k c0 c Hc0 Hc. specialize (Hinv2 k c0 c Hc0 Hc).
          destruct (in_dec Nat.eq_dec k (packed ++ [i])) as [F|F]; destruct (in_dec Nat.eq_dec k (i :: packed)) as [F'|F']; try assumption; exfalso.
          -- apply F'. apply in_app_or in F. destruct F as [F|[F|[]]]; [right|left]; assumption.
          -- apply F. apply in_or_app. destruct F' as [F'|F']; [right; left|left]; assumption.
        * rewrite <- (Hx Hd). apply I7; [assumption| |assumption]. intro F. apply in_app_or in F. destruct F as [F|[F|[]]]; congruence.
      + assert (ND' : NoDup (packed ++ r)) by (apply NoDup_remove_1 in ND; assumption).
        assert (HE' : forall j, In j (packed ++ r) -> nth_error bs0 j <> None).
        { intros j Hj. apply HE. apply in_app_or in Hj. apply in_or_app. destruct Hj; [left|right; right]; assumption. }
        assert (Hinv3 : fit_inv x1 bs0 (update i rollback bs2) packed).
        { destruct Hinv2 as [L2 Hinv2]. split; [rewrite update_length; assumption|]. intros j c0 c Hc0 Hc.
          destruct (Nat.eq_dec j i) as [->|Hji].
          - destruct (in_dec Nat.eq_dec i packed); [contradiction|]. rewrite update_nth_same, N2 in Hc. cbn in Hc. inv Hc.
            rewrite E0 in Hc0. inv Hc0. split; [unfold see; rewrite A2, A3; assumption|]. intros Hd. destruct (A6 Hd) as [_ ->].
            unfold ModelRollback.rollback. rewrite Hd. cbn. rewrite removelast_last, <- (Hbb Hd). destruct b; reflexivity.
          - rewrite update_nth_other in Hc by congruence. specialize (Hinv2 j c0 c Hc0 Hc).
            destruct (in_dec Nat.eq_dec j (packed ++ [i])) as [F|F]; destruct (in_dec Nat.eq_dec j packed) as [F'|F']; try assumption; exfalso.
            + apply in_app_or in F. destruct F as [F|[F|[]]]; congruence.
            + apply F. apply in_or_app. left. assumption. }
        destruct (IH _ _ _ _ _ _ bs0 H ND' HE' Hinv3) as [I1 [I2 [I3 [I4 [I5 [[more I6] I7]]]]]].
        split; [assumption|]. split; [congruence|]. split; [intro Hd; rewrite (I3 Hd); auto|]. split; [assumption|].
        split; [|split; [exists more; assumption|]].
        * intros j Hj. apply I5 in Hj. apply in_app_or in Hj. apply in_or_app. destruct Hj; [left|right; right]; assumption.
        * intros j Hj Hnj Hd. rewrite <- (Hx Hd). apply I7; assumption.
  Qed.

  (** rolling back all but one *)
  Definition unwind (best : nat) (packed : list nat) (bs : list (@bin A)) :=
    fold_left (fun bs j => if Nat.eqb j best then bs else update j rollback bs) packed bs.

  Lemma unwind_length : forall best packed bs, length (unwind best packed bs) = length bs.
  Proof.
    induction packed as [|j l IH]; intros bs; [reflexivity|]. cbn [unwind fold_left]. unfold unwind in IH. rewrite IH.
    destruct (Nat.eqb j best); [reflexivity|]. apply update_length.
  Qed.

  Lemma unwind_nth : forall best packed bs j, NoDup packed -> nth_error (unwind best packed bs) j =
    if in_dec Nat.eq_dec j packed then (if Nat.eqb j best then nth_error bs j else option_map rollback (nth_error bs j)) else nth_error bs j.
  Proof.
    induction packed as [|i r IH]; intros bs j ND; [reflexivity|]. inv ND. cbn [unwind fold_left].
    fold (unwind best r (if Nat.eqb i best then bs else update i rollback bs)). rewrite IH by assumption.
    destruct (in_dec Nat.eq_dec j r) as [Hj|Hj]; destruct (in_dec Nat.eq_dec j (i :: r)) as [Hj'|Hj']; cbn in Hj'; try tauto.
    - assert (i <> j) by (intro; subst; contradiction). destruct (Nat.eqb i best); [reflexivity|]. rewrite update_nth_other by assumption. reflexivity.
    - destruct Hj' as [->|?]; [|contradiction]. destruct (Nat.eqb j best); [reflexivity|]. apply update_nth_same.
    - assert (i <> j) by tauto. destruct (Nat.eqb i best); [reflexivity|]. rewrite update_nth_other by assumption. reflexivity.
  Qed.

  Lemma select_first_in : forall better bs l best, In (select_first size better bs best l) (best :: l).
  Proof.
    induction l as [|i r IH]; intros best; [left; reflexivity|]. cbn [select_first].
    destruct (IH (if better (spare_at size bs i) (spare_at size bs best) then i else best)) as [H|H].
    - rewrite <- H. destruct (better _ _); [right; left|left]; reflexivity.
    - right. right. assumption.
  Qed.

  Definition candidates_of (bs : list (@bin A)) (x : A) :=
    filter (fun i => match nth_error bs i with Some b => negb (infeasible b x) | None => false end) (seq 0 (length bs)).

  Lemma fit_inv_init : forall x bs, fit_inv x bs bs [].
  Proof. intros x bs. split; [reflexivity|]. intros j b0 b H1 H2. rewrite H1 in H2. inv H2. cbn. auto. Qed.

  Lemma fit_loop_start : forall bs x packed bs' x', fit_loop size ductile upd det G (candidates_of bs x) [] bs x = (packed, bs', x') ->
    fit_inv x' bs bs' packed /\ ident x' = ident x /\ (ductile = false -> x' = x) /\ NoDup packed /\
    (forall j, In j packed -> In j (candidates_of bs x)) /\
    (forall j, In j packed -> ductile = false -> exists bs1 pk, ~ In j pk /\ fit_inv x bs bs1 (j :: pk) /\ validate bs1 j = true).
  Proof.
    intros bs x packed bs' x' H. destruct (fit_loop_spec _ _ _ _ _ _ _ bs H) as [I1 [I2 [I3 [I4 [I5 [_ I7]]]]]].
    - cbn. apply NoDup_filter. apply seq_NoDup.
    - cbn. intros j Hj. unfold candidates_of in Hj. apply filter_In in Hj. destruct Hj as [_ Hj]. destruct (nth_error bs j); congruence.
    - apply fit_inv_init.
    - split; [assumption|]. split; [assumption|]. split; [assumption|]. split; [assumption|]. split; [assumption|].
      intros j Hj Hd. apply I7; auto.
  Qed.

  Lemma place_fit_spec : forall better bs x ok bs' x', place_fit size ductile upd det G better bs x = (ok, bs', x') ->
    ident x' = ident x /\
    if ok then exists i, In i (candidates_of bs x) /\ (exists b0 b, nth_error bs i = Some b0 /\ tentative x' b0 b /\
                 views bs' = update i (fun _ => see b) (views bs)) /\
               (ductile = false -> x' = x /\ bs' = update i (fun b => Bin (max_capacity b) (items b ++ [x]) (saved_items b)) bs /\
                  exists bs1 pk, ~ In i pk /\ fit_inv x bs bs1 (i :: pk) /\ validate bs1 i = true) /\
               (exists i0 r bs1, fit_loop size ductile upd det G (candidates_of bs x) [] bs x = (i0 :: r, bs1, x') /\
                  i = select_first size better bs1 i0 r)
    else views bs' = views bs.
  Proof.
    intros better bs x ok bs' x' H. unfold place_fit in H. fold (candidates_of bs x) in H.
    destruct (fit_loop size ductile upd det G (candidates_of bs x) [] bs x) as [[packed bs1] x1] eqn:E.
    destruct (fit_loop_start _ _ _ _ _ E) as [[L I1] [I2 [I3 [I4 [I5 I6]]]]].
    destruct packed as [|i r].
    - inv H. split; [assumption|]. apply nth_error_ext. intros j. unfold views. rewrite !nth_error_map.
      destruct (nth_error bs j) as [b0|] eqn:E0; destruct (nth_error bs' j) as [b|] eqn:Eb; cbn; try reflexivity.
      + destruct (I1 j b0 b E0 Eb) as [Hs _]. rewrite Hs. reflexivity.
      + exfalso. apply nth_error_None in Eb. assert (j < length bs)%nat by (apply nth_error_Some; congruence). lia.
      + exfalso. apply nth_error_None in E0. assert (j < length bs')%nat by (apply nth_error_Some; congruence). lia.
    - set (best := select_first size better bs1 i r) in *. rewrite commit_id in H.
      assert (Hbs : bs' = unwind best (i :: r) bs1 /\ ok = true /\ x' = x1) by (inversion H; auto). destruct Hbs as [-> [-> ->]]. clear H.
      split; [assumption|]. assert (Hbest : In best (i :: r)) by apply select_first_in.
      exists best. split; [apply I5; assumption|]. rewrite and_assoc_swap. split; [exists i, r, bs1; split; reflexivity|].
      assert (Hb0 : exists b0 b, nth_error bs best = Some b0 /\ nth_error bs1 best = Some b).
      { pose proof (I5 best Hbest) as Hc. unfold candidates_of in Hc. apply filter_In in Hc. destruct Hc as [Hc _]. apply in_seq in Hc.
        destruct (nth_error bs best) as [b0|] eqn:F0; [|apply nth_error_None in F0; lia].
        destruct (nth_error bs1 best) as [b|] eqn:F1; [|apply nth_error_None in F1; lia]. eauto. }
      destruct Hb0 as [b0 [b [F0 F1]]].
      assert (Ht : tentative x1 b0 b). { specialize (I1 best b0 b F0 F1). destruct (in_dec Nat.eq_dec best (i :: r)); [assumption|contradiction]. }
      assert (Hothers : forall j c0 c, j <> best -> nth_error bs j = Some c0 -> nth_error (unwind best (i :: r) bs1) j = Some c ->
                see c = see c0 /\ (ductile = false -> c = c0)).
      { intros j c0 c Hj Hc0 Hc. rewrite unwind_nth in Hc by assumption. apply Nat.eqb_neq in Hj. rewrite Hj in Hc.
        destruct (nth_error bs1 j) as [c1|] eqn:Ec1; [|destruct (in_dec Nat.eq_dec j (i :: r)); discriminate].
        specialize (I1 j c0 c1 Hc0 Ec1). destruct (in_dec Nat.eq_dec j (i :: r)).
        - cbn in Hc. inv Hc. destruct I1 as [T1 [T2 [T3 T4]]]. split; [unfold see; rewrite rollback_cap, T3, T1; reflexivity|].
          intros Hd. rewrite (T4 Hd). unfold ModelRollback.rollback. rewrite Hd. cbn. rewrite removelast_last. destruct c0; reflexivity.
        - inv Hc. assumption. }
      assert (Hlen : length (unwind best (i :: r) bs1) = length bs).
      { rewrite <- L. apply unwind_length. }
      assert (Hnb : nth_error (unwind best (i :: r) bs1) best = Some b).
      { rewrite unwind_nth by assumption. destruct (in_dec Nat.eq_dec best (i :: r)); [|contradiction]. rewrite Nat.eqb_refl. assumption. }
      split.
      + exists b0, b. split; [assumption|]. split; [assumption|]. apply nth_error_ext. intros j.
        destruct (Nat.eq_dec j best) as [->|Hj].
        * rewrite update_nth_same. unfold views. rewrite !nth_error_map, Hnb, F0. reflexivity.
        * rewrite update_nth_other by congruence. unfold views. rewrite !nth_error_map.
          destruct (nth_error bs j) as [c0|] eqn:E0; destruct (nth_error (unwind best (i :: r) bs1) j) as [c|] eqn:Ec; cbn; try reflexivity.
          -- destruct (Hothers j c0 c Hj E0 Ec) as [-> _]. reflexivity.
          -- exfalso. apply nth_error_None in Ec. assert (j < length bs)%nat by (apply nth_error_Some; congruence). lia.
          -- exfalso. apply nth_error_None in E0. assert (j < length (unwind best (i :: r) bs1))%nat by (apply nth_error_Some; congruence). lia.
      + intros Hd. split; [auto|]. split; [|apply I6; assumption]. rewrite (I3 Hd) in *. apply nth_error_ext. intros j.
        destruct (Nat.eq_dec j best) as [->|Hj].
        * rewrite update_nth_same, Hnb, F0. cbn. f_equal. destruct Ht as [_ [_ [_ Ht]]]. auto.
        * rewrite update_nth_other by congruence.
          destruct (nth_error bs j) as [c0|] eqn:E0; destruct (nth_error (unwind best (i :: r) bs1) j) as [c|] eqn:Ec; cbn; try reflexivity.
          -- destruct (Hothers j c0 c Hj E0 Ec) as [_ Hc]. rewrite (Hc Hd). reflexivity.
          -- exfalso. apply nth_error_None in Ec. assert (j < length bs)%nat by (apply nth_error_Some; congruence). lia.
          -- exfalso. apply nth_error_None in E0. assert (j < length (unwind best (i :: r) bs1))%nat by (apply nth_error_Some; congruence). lia.
  Qed.

  (** an accepted item identified by [k]: as [added], without the capacity *)
  Definition grown (k : K) (v v' : list (Q * list A)) : Prop :=
    exists pre cap old new post, v = pre ++ (cap, old) :: post /\ v' = pre ++ (cap, new) :: post /\ map ident new = map ident old ++ [k].

  Lemma added_grown : forall k v v', added size ident k v v' -> grown k v v'.
  Proof. intros k v v' [i [pre [cap [old [new [post [? [? [? [? ?]]]]]]]]]]. exists pre, cap, old, new, post. auto. Qed.

  Lemma place_fit_grown : forall better bs x bs' x', place_fit size ductile upd det G better bs x = (true, bs', x') ->
    grown (ident x) (views bs) (views bs').
  Proof.
    intros better bs x bs' x' H. apply place_fit_spec in H. destruct H as [Hx [i [_ [[b0 [b [E [[T1 [T2 _]] V]]]] [_ _]]]]].
    rewrite V. assert (E' : nth_error (views bs) i = Some (see b0)) by (unfold views; rewrite nth_error_map, E; reflexivity).
    destruct (update_split _ (fun _ => see b) _ _ _ E') as [pre [post [_ [P2 P3]]]]. rewrite P3, P2. unfold see. rewrite T1. exists pre, (max_capacity b0), (items b0), (items b), post. rewrite <- Hx. auto.
  Qed.

  (** Fixed-size items *)
  Lemma place_fit_added : forall better bs x bs' x', ductile = false ->
    place_fit size ductile upd det G better bs x = (true, bs', x') ->
    added size ident (ident x) (views bs) (views bs') /\ (downward G -> G (contents bs') = true).
  Proof.
    intros better bs x bs' x' Hd H. apply place_fit_spec in H. destruct H as [_ [i [_ [[b0 [_ [E _]]] [H _]]]]].
    destruct (H Hd) as [-> [-> [bs1 [pk [Hni [[L Hinv] V]]]]]]. clear H.
    unfold ModelRollback.validate in V. destruct (nth_error bs1 i) as [b1|] eqn:E1; [|discriminate].
    apply andb_prop in V. destruct V as [V1 V2]. apply Qle_bool_iff in V1.
    pose proof (Hinv i b0 b1 E E1) as Hi. destruct (in_dec Nat.eq_dec i (i :: pk)) as [_|F]; [|exfalso; apply F; left; reflexivity].
    destruct Hi as [_ [_ [_ Hi]]]. specialize (Hi Hd). subst b1. cbn [items max_capacity] in V1. rewrite sum_sizes_load in V1. split.
    - exists i. destruct (update_split _ (fun b => Bin (max_capacity b) (items b ++ [x]) (saved_items b)) _ _ _ E) as [pre [post [P1 [P2 P3]]]].
      exists (views pre), (max_capacity b0), (items b0), (items b0 ++ [x]), (views post). unfold views.
      split; [rewrite map_length; assumption|]. split; [rewrite P2 at 1; rewrite map_app; reflexivity|].
      split; [rewrite P3, map_app; reflexivity|]. split; [rewrite map_app; reflexivity|]. assumption.
    - intros HD. refine (HD _ _ _ V2). unfold contents. clear V1 V2 HD.
      apply Forall2_nth_error_intro; [rewrite !map_length, update_length; congruence|].
      intros j l l' Hl Hl'. rewrite nth_error_map in Hl, Hl'.
      destruct (nth_error (update i _ bs) j) as [c|] eqn:Ec; [|discriminate]. cbn in Hl. inv Hl.
      destruct (nth_error bs1 j) as [c1|] eqn:Ec1; [|discriminate]. cbn in Hl'. inv Hl'.
      destruct (Nat.eq_dec j i) as [->|Hj].
      + rewrite update_nth_same, E in Ec. cbn in Ec. inv Ec. rewrite E1 in Ec1. inv Ec1. exists []. rewrite app_nil_r. reflexivity.
      + rewrite update_nth_other in Ec by congruence. specialize (Hinv j c c1 Ec Ec1).
        destruct (in_dec Nat.eq_dec j (i :: pk)).
        * destruct Hinv as [_ [_ [_ T]]]. rewrite (T Hd). exists [x]. reflexivity.
        * destruct Hinv as [_ T]. rewrite (T Hd). exists []. rewrite app_nil_r. reflexivity.
  Qed.

  (** ** All heuristics *)
  Definition sequential (h : heuristic) : Prop := match h with WorstFit | BestFit => False | _ => True end.

  Definition accepted (h : heuristic) (k : K) (v v' : list (Q * list A)) : Prop :=
    grown k v v' /\ (sequential h \/ ductile = false -> added size ident k v v') /\
    (sequential h \/ ductile = false /\ downward G -> G (map snd v') = true).

  Lemma place_spec : forall h bs cur x ok bs' x' cur',
    try_to_place_item size ductile upd det G h bs cur x = (ok, bs', x', cur') ->
    ident x' = ident x /\ if ok then accepted h (ident x) (views bs) (views bs') else views bs' = views bs.
  Proof.
    intros h bs cur x ok bs' x' cur' H.
    assert (Hseq : sequential h -> (ident x' = ident x /\ if ok then added size ident (ident x) (views bs) (views bs') /\ G (contents bs') = true else views bs' = views bs) ->
      ident x' = ident x /\ if ok then accepted h (ident x) (views bs) (views bs') else views bs' = views bs).
    { intros Hs [H1 H2]. split; [assumption|]. destruct ok; [|assumption]. destruct H2 as [H2 H3]. split; [apply added_grown; assumption|].
      split; [intros _; assumption|]. intros _. rewrite <- contents_views. assumption. }
    assert (Hfit : forall better, h = WorstFit \/ h = BestFit -> place_fit size ductile upd det G better bs x = (ok, bs', x') ->
      ident x' = ident x /\ if ok then accepted h (ident x) (views bs) (views bs') else views bs' = views bs).
    { intros better Hh E. destruct ok.
      - pose proof (place_fit_spec _ _ _ _ _ _ E) as [Hi _]. split; [assumption|]. split; [eapply place_fit_grown; eassumption|].
        assert (Hns : ~ sequential h) by (destruct Hh; subst; cbn; tauto).
        split; intros [F|F]; try contradiction.
        + apply (place_fit_added _ _ _ _ _ F E).
        + destruct F as [F1 F2]. rewrite <- contents_views. apply (place_fit_added _ _ _ _ _ F1 E). assumption.
      - apply (place_fit_spec _ _ _ _ _ _ E). }
    destruct h; cbn [try_to_place_item] in H.
    - apply Hseq; [exact I|]. apply try_next_spec in H. destruct H as [_ [H1 H2]]. split; [assumption|]. destruct ok; [|assumption].
      destruct H2. split; [exists cur'|]; assumption.
    - apply Hseq; [exact I|]. apply try_bins_spec with (idxs := seq 0 (length bs)). injection H as H _. exact H.
    - eapply Hfit; [left; reflexivity|]. injection H as H _. exact H.
    - eapply Hfit; [right; reflexivity|]. injection H as H _. exact H.
    - apply Hseq; [exact I|]. apply try_bins_spec with (idxs := sort_key_desc (spare_at size bs) (seq 0 (length bs))). injection H as H _. exact H.
    - apply Hseq; [exact I|]. apply try_bins_spec with (idxs := sort_key_desc (fun i => - spare_at size bs i) (seq 0 (length bs))). injection H as H _. exact H.
  Qed.

  Definition extra_ok (mk : option (@bin A)) (extra : list (Q * list A)) : Prop :=
    extra = [] \/ exists b, mk = Some b /\ extra = [see b].

  Lemma place_or_open_spec : forall h mk bs cur x ok bs' x' cur',
    place_or_open size ductile upd det G h mk bs cur x = (ok, bs', x', cur') ->
    ident x' = ident x /\ exists extra, extra_ok mk extra /\
    if ok then accepted h (ident x) (views bs ++ extra) (views bs') else views bs' = views bs ++ extra.
  Proof.
    intros h mk bs cur x ok bs' x' cur' H. unfold place_or_open in H.
    destruct (try_to_place_item size ductile upd det G h bs cur x) as [[[ok1 bs1] x1] cur1] eqn:E.
    apply place_spec in E. destruct E as [E1 E2]. destruct ok1.
    - inv H. split; [assumption|]. exists []. split; [left; reflexivity|]. rewrite app_nil_r. assumption.
    - destruct mk as [b|].
      + destruct (try_to_add (bs1 ++ [b]) (length bs1) x1) as [[ok2 bs2] x2] eqn:E'. inv H.
        apply try_to_add_spec in E'. destruct E' as [F1 F2]. split; [congruence|]. exists [see b]. split; [right; exists b; auto|].
        assert (Hv : views (bs1 ++ [b]) = views bs ++ [see b]) by (unfold views; rewrite map_app; fold (views bs1); rewrite E2; reflexivity).
        rewrite Hv, E1 in F2. destruct ok; [|assumption]. destruct F2 as [F2 F3].
        assert (Fa : added size ident (ident x) (views bs ++ [see b]) (views bs')) by (eexists; exact F2).
        split; [apply added_grown; assumption|]. split; [intros _; assumption|]. intros _. rewrite <- contents_views. assumption.
      + inv H. split; [assumption|]. exists []. split; [left; reflexivity|]. rewrite app_nil_r. assumption.
  Qed.

  Definition all_items (v : list (Q * list A)) : list A := concat (map snd v).

  Lemma all_items_app : forall v v', all_items (v ++ v') = all_items v ++ all_items v'.
  Proof. intros. unfold all_items. rewrite map_app, concat_app. reflexivity. Qed.

  Lemma grown_perm : forall k v v', grown k v v' -> Permutation (map ident (all_items v')) (k :: map ident (all_items v)).
  Proof.
    intros k v v' [pre [cap [old [new [post [-> [-> H]]]]]]]. rewrite !all_items_app. unfold all_items at 2 4. cbn.
    rewrite !map_app, H. rewrite <- app_assoc. symmetry. cbn. 
    etransitivity; [|apply Permutation_app_head; apply Permutation_middle]. apply Permutation_middle.
  Qed.

  Lemma added_capacity : forall k v v', added size ident k v v' -> in_capacity size v -> in_capacity size v'.
  Proof.
    intros k v v' [i [pre [cap [old [new [post [_ [-> [-> [_ H]]]]]]]]]] HF. apply Forall_app in HF. destruct HF as [F1 F2]. inv F2.
    apply Forall_app. split; [assumption|]. constructor; assumption.
  Qed.

  Definition mk_empty (mk : option (@bin A)) : Prop := forall b, mk = Some b -> items b = [] /\ 0 <= max_capacity b.

  Lemma extra_items : forall mk extra, mk_empty mk -> extra_ok mk extra -> all_items extra = [] /\ in_capacity size extra /\
    (extra = [] \/ map snd extra = [[]]).
  Proof.
    intros mk extra Hm [->|[b [E ->]]]; [repeat split; [constructor|left; reflexivity]|].
    destruct (Hm b E) as [H1 H2]. unfold see, all_items. cbn. rewrite H1. repeat split; [|right; reflexivity].
    constructor; [cbn; rewrite ?H1; exact H2|constructor].
  Qed.

  Lemma binpack_loop_spec : forall h mk raises, mk_empty mk -> forall todo bs cur mis count s n raised,
    binpack_loop size ductile upd det G h mk raises todo bs cur mis count = (s, n, raised) ->
    Permutation (map ident (all_items (views (bins s)) ++ misfits s ++ remaining_items s))
                (map ident (all_items (views bs) ++ mis ++ todo)) /\
    (length (all_items (views (bins s))) + count = length (all_items (views bs)) + n)%nat /\
    (raised = false -> remaining_items s = []) /\
    (mk = None -> length (bins s) = length bs) /\
    (sequential h \/ ductile = false -> in_capacity size (views bs) -> in_capacity size (views (bins s))) /\
    (sequential h \/ ductile = false /\ downward G -> (forall l, G l = true -> mk <> None -> G (l ++ [[]]) = true) ->
       G (contents bs) = true -> G (contents (bins s)) = true).
  Proof.
    intros h mk raises Hm. induction todo as [|x todo IH]; intros bs cur mis count s n raised H; cbn [binpack_loop] in H.
    - inv H. cbn [bins misfits remaining_items]. repeat split; auto.
    - destruct (place_or_open size ductile upd det G h mk bs cur x) as [[[ok bs1] x1] cur1] eqn:E.
      apply place_or_open_spec in E. destruct E as [E1 [extra [E2 E3]]]. destruct (extra_items mk extra Hm E2) as [X1 [X2 X3]].
      assert (Xl : mk = None -> extra = []) by (intros ->; destruct E2 as [?|[b [? _]]]; [assumption|discriminate]).
      assert (HG0 : (forall l, G l = true -> mk <> None -> G (l ++ [[]]) = true) -> G (contents bs) = true -> G (map snd (views bs ++ extra)) = true).
      { intros Hl HG. rewrite map_app, <- contents_views. destruct X3 as [->|X3]; [cbn; rewrite app_nil_r; assumption|].
        rewrite X3. apply Hl; [assumption|]. intro F. rewrite (Xl F) in X3. discriminate. }
      destruct ok.
      + apply IH in H. destruct H as [H1 [H2 [H3 [H4 [H5 H6]]]]]. destruct E3 as [A0 [A2 A3]]. pose proof (grown_perm _ _ _ A0) as A1.
        rewrite all_items_app, X1, app_nil_r in A1. split; [|split; [|split; [assumption|split; [|split]]]].
        * etransitivity; [exact H1|]. rewrite !map_app in *. etransitivity; [apply Permutation_app_tail; exact A1|].
          cbn [map app]. etransitivity; [apply Permutation_middle|]. apply Permutation_app_head. apply Permutation_middle.
        * apply Permutation_length in A1. cbn in A1. rewrite !map_length in A1. lia.
        * intros Hmk. rewrite (H4 Hmk). rewrite (Xl Hmk), app_nil_r in A0. destruct A0 as [pre [cap [old [new [post [P1 [P2 _]]]]]]].
          apply (f_equal (@length _)) in P1. apply (f_equal (@length _)) in P2. unfold views in P1, P2. rewrite map_length, app_length in P1, P2. cbn in P1, P2. congruence.
        * intros Hc HF. apply H5; [assumption|]. eapply added_capacity; [apply A2; assumption|]. apply Forall_app. split; assumption.
        * intros Hc Hl HG. apply H6; try assumption. rewrite contents_views. apply A3. assumption.
      + assert (Hlast : Permutation (map ident (all_items (views bs1) ++ (mis ++ [x1]) ++ todo)) (map ident (all_items (views bs) ++ mis ++ x :: todo))).
        { rewrite E3, all_items_app, X1, app_nil_r, <- app_assoc. cbn [app]. rewrite !map_app. cbn [map]. rewrite E1. reflexivity. }
        assert (Hlen : length (all_items (views bs1)) = length (all_items (views bs))) by (rewrite E3, all_items_app, X1, app_nil_r; reflexivity).
        assert (Hmk1 : mk = None -> length bs1 = length bs).
        { intros Hmk. rewrite (Xl Hmk), app_nil_r in E3. apply (f_equal (@length _)) in E3. unfold views in E3. rewrite !map_length in E3. assumption. }
        assert (HF1 : in_capacity size (views bs) -> in_capacity size (views bs1)) by (intros HF; rewrite E3; apply Forall_app; split; assumption).
        destruct (raises x1).
        * inv H. cbn [bins misfits remaining_items]. split; [assumption|]. split; [lia|]. split; [discriminate|]. split; [assumption|].
          split; [intros _; assumption|]. intros _ Hl HG. rewrite contents_views, E3. apply HG0; assumption.
        * apply IH in H. destruct H as [H1 [H2 [H3 [H4 [H5 H6]]]]]. split; [|split; [lia|split; [assumption|split; [|split]]]].
          -- etransitivity; [exact H1|]. exact Hlast.
          -- intros Hmk. rewrite (H4 Hmk). auto.
          -- intros Hc HF. apply H5; auto.
          -- intros Hc Hl HG. apply H6; try assumption. rewrite contents_views, E3. apply HG0; assumption.
  Qed.
End R.

(** ** Fixed-size items, capacity checks only *)
Section Fixed.
  Context {A : Type} (size : A -> Q) (upd : A -> list A -> A -> A) (det : A -> list A -> A).
  Notation G := (fun _ : list (list A) => true).

  Definition put_item (x : A) (b : @bin A) : @bin A := Bin (max_capacity b) (items b ++ [x]) (saved_items b).
  Definition feasible (bs : list (@bin A)) (x : A) (i : nat) : bool :=
    match nth_error bs i with Some b => negb (infeasible_to_fit size b x) | None => false end.

  Lemma feasible_le : forall b x, infeasible_to_fit size b x = false <-> load size (items b) + size x <= max_capacity b.
  Proof.
    intros b x. unfold infeasible_to_fit, spare_capacity, allocated_capacity. rewrite sum_sizes_load, negb_false_iff, Qle_bool_iff. split; lra.
  Qed.

  Lemma try_to_add_fixed : forall bs i x b, nth_error bs i = Some b -> infeasible_to_fit size b x = false ->
    try_to_add size false upd det G bs i x = (true, update i (put_item x) bs, x).
  Proof.
    intros bs i x b E Hf. unfold try_to_add, assign. rewrite E. cbn [temporary_assign prepare].
    assert (Hu : update i (fun _ => put_item x b) bs = update i (put_item x) bs)
      by (apply update_ext; intros b0 Hb0; rewrite E in Hb0; inv Hb0; reflexivity).
    fold (put_item x b). rewrite Hu. unfold validate. rewrite update_nth_same, E. cbn [option_map].
    assert (Hq : Qle_bool (sum_sizes size (items (put_item x b))) (max_capacity (put_item x b)) = true).
    { apply Qle_bool_iff. rewrite sum_sizes_load. cbn [put_item items max_capacity]. rewrite load_app. cbn [load].
      apply feasible_le in Hf. lra. }
    rewrite Hq. cbn [andb]. rewrite commit_id. reflexivity.
  Qed.

  Lemma try_bins_fixed : forall bs x idxs, try_bins size false upd det G idxs bs x =
    match find (feasible bs x) idxs with
    | Some i => (true, update i (put_item x) bs, x)
    | None => (false, bs, x)
    end.
  Proof.
    intros bs x. induction idxs as [|i r IH]; [reflexivity|]. cbn [try_bins find]. unfold feasible at 1.
    destruct (nth_error bs i) as [b|] eqn:E; [|exact IH].
    destruct (infeasible_to_fit size b x) eqn:Hf; cbn [negb]; [exact IH|].
    rewrite (try_to_add_fixed bs i x b E Hf). reflexivity.
  Qed.

  Lemma fit_loop_all : forall x candidates packed bs, NoDup (packed ++ candidates) ->
    (forall j, In j candidates -> feasible bs x j = true) ->
    fst (fst (fit_loop size false upd det G candidates packed bs x)) = packed ++ candidates.
  Proof.
    intros x. induction candidates as [|i r IH]; intros packed bs ND HC; cbn [fit_loop]; [rewrite app_nil_r; reflexivity|].
    pose proof (HC i (or_introl eq_refl)) as Hi. unfold feasible in Hi. unfold assign.
    destruct (nth_error bs i) as [b|] eqn:E; [|discriminate]. cbn [temporary_assign prepare].
    apply negb_true_iff in Hi.
    assert (NDp : NoDup packed). { clear -ND. induction packed; [constructor|]. inv ND. constructor; [|auto]. intro F. apply H1. apply in_or_app. left. assumption. }
    assert (Hni : ~ In i packed). { apply NoDup_remove_2 in ND. intro F. apply ND. apply in_or_app. left. assumption. }
    set (bs2 := refresh_all packed x (update i (fun _ => Bin (max_capacity b) (items b ++ [x]) (saved_items b)) bs)).
    assert (N2 : nth_error bs2 i = Some (put_item x b)).
    { unfold bs2. rewrite refresh_all_nth by assumption. destruct (in_dec Nat.eq_dec i packed); [contradiction|]. rewrite update_nth_same, E. reflexivity. }
    assert (V : validate size G bs2 i = true).
    { unfold validate. rewrite N2. apply andb_true_intro. split; [|reflexivity]. apply Qle_bool_iff. rewrite sum_sizes_load.
      cbn [put_item items max_capacity]. rewrite load_app. cbn [load]. apply feasible_le in Hi. lra. }
    rewrite V. replace (packed ++ i :: r) with ((packed ++ [i]) ++ r) in * by (rewrite <- app_assoc; reflexivity).
    apply IH; [assumption|]. intros j Hj.
    assert (Hnj : ~ In j (packed ++ [i])).
    { clear -ND Hj. induction (packed ++ [i]) as [|a l IHl]; [intros []|]. inv ND. intros [->|F]; [apply H1; apply in_or_app; right; assumption|]. apply IHl; assumption. }
    rewrite <- (HC j (or_intror Hj)). unfold feasible. f_equal. unfold bs2. rewrite refresh_all_nth by assumption.
    destruct (in_dec Nat.eq_dec j packed) as [F|F]; [exfalso; apply Hnj; apply in_or_app; left; assumption|].
    rewrite update_nth_other; [reflexivity|]. intros ->. apply Hnj. apply in_or_app. right. left. reflexivity.
  Qed.

  (** The best index for a key: largest key, lowest index among equals. *)
  Definition chosen (key : nat -> Q) (P : nat -> bool) (i : nat) : Prop :=
    P i = true /\ forall j, P j = true -> key j <= key i /\ (key j == key i -> (i <= j)%nat).

  Lemma chosen_unique : forall key P i j, chosen key P i -> chosen key P j -> i = j.
  Proof.
    intros key P i j [H1 H2] [H3 H4]. destruct (H2 j H3) as [A1 A2]. destruct (H4 i H1) as [B1 B2].
    assert (key i == key j) by lra. specialize (B2 H). symmetry in H. specialize (A2 H). lia.
  Qed.

  Lemma chosen_ext : forall key key' P i, (forall j k, P j = true -> P k = true -> key j - key k == key' j - key' k) ->
    chosen key P i -> chosen key' P i.
  Proof.
    intros key key' P i H [H1 H2]. split; [assumption|]. intros j Hj. destruct (H2 j Hj) as [A1 A2]. specialize (H j i Hj H1).
    split; [lra|]. intros E. apply A2. lra.
  Qed.

  Lemma find_sorted_chosen : forall key P n i, find P (sort_key_desc key (seq 0 n)) = Some i ->
    (forall j, P j = true -> (j < n)%nat) -> chosen key P i.
  Proof.
    intros key P n i E Hn. set (l := sort_key_desc key (seq 0 n)) in *.
    pose proof (sort_key_perm key (seq 0 n)) as HP. pose proof (sort_key_sorted key (seq 0 n)) as HS. fold l in HP, HS.
    apply find_first_in in E. destruct E as [l1 [l2 [E1 [E2 E3]]]]. split; [assumption|]. intros j Hj.
    assert (Hjl : In j l) by (apply (Permutation_in _ (Permutation_sym HP)); apply in_seq; specialize (Hn j Hj); lia).
    rewrite E1 in Hjl. apply in_app_or in Hjl. destruct Hjl as [F|[F|F]].
    - apply E3 in F. congruence.
    - subst j. split; [apply Qle_refl|]. intros. lia.
    - assert (Hle : key j <= key i) by (rewrite E1 in HS; eapply decreasing_app; eassumption). split; [assumption|]. intros Heq.
      pose proof (sort_key_stable key (seq 0 n) (key j)) as Hst. fold l in Hst. rewrite E1 in Hst.
      rewrite filter_app in Hst. cbn [filter] in Hst. rewrite (proj2 (Qeq_bool_iff (key i) (key j))) in Hst by (symmetry; assumption).
      symmetry in Hst. apply Nat.lt_le_incl. eapply filter_seq_lt; [exact Hst|]. apply filter_In. split; [assumption|]. apply Qeq_bool_iff. reflexivity.
  Qed.

  Lemma find_sorted_none : forall key P n, find P (sort_key_desc key (seq 0 n)) = None -> (forall j, P j = true -> (j < n)%nat) ->
    forall j, P j = false.
  Proof.
    intros key P n E Hn j. destruct (P j) eqn:F; [|reflexivity]. rewrite <- F. apply (find_none _ _ E).
    apply (Permutation_in _ (Permutation_sym (sort_key_perm key (seq 0 n)))). apply in_seq. specialize (Hn j F). lia.
  Qed.

  (** ascending lists of indices *)
  Inductive incr : list nat -> Prop := incr_nil : incr [] | incr_cons : forall a l, (forall b, In b l -> (a < b)%nat) -> incr l -> incr (a :: l).
  Lemma incr_seq : forall n a, incr (seq a n).
  Proof. induction n as [|n IH]; intros a; cbn; constructor; [|apply IH]. intros b Hb. apply in_seq in Hb. lia. Qed.
  Lemma incr_filter : forall P l, incr l -> incr (filter P l).
  Proof.
    induction l as [|a l IH]; intros H; cbn; [constructor|]. inv H. destruct (P a); [|auto]. constructor; [|auto].
    intros b Hb. apply filter_In in Hb. destruct Hb. auto.
  Qed.

  Lemma select_first_chosen : forall better (f : Q -> Q) bs, (forall a b, better a b = true <-> f b < f a) ->
    forall l best seen, (forall a b, In a (best :: seen) -> In b l -> (a < b)%nat) -> incr l ->
    (forall j, In j (best :: seen) -> f (spare_at size bs j) <= f (spare_at size bs best) /\
        (f (spare_at size bs j) == f (spare_at size bs best) -> (best <= j)%nat)) ->
    forall j, In j (best :: seen ++ l) -> f (spare_at size bs j) <= f (spare_at size bs (select_first size better bs best l)) /\
        (f (spare_at size bs j) == f (spare_at size bs (select_first size better bs best l)) -> (select_first size better bs best l <= j)%nat).
  Proof.
    intros better f bs Hb. induction l as [|i r IH]; intros best seen H1 H2 H3 j Hj; cbn [select_first].
    - rewrite app_nil_r in Hj. apply H3. assumption.
    - inv H2. set (sp := fun k => f (spare_at size bs k)) in *.
      assert (Hj' : In j ((if better (spare_at size bs i) (spare_at size bs best) then i else best) ::
                          ((if better (spare_at size bs i) (spare_at size bs best) then best else i) :: seen) ++ r)).
      { cbn [app]. destruct (better _ _); destruct Hj as [Hj|Hj]; try (subst; cbn; tauto); apply in_app_or in Hj; cbn in *;
        rewrite in_app_iff; tauto. }
      apply IH with (seen := (if better (spare_at size bs i) (spare_at size bs best) then best else i) :: seen); [|assumption| |assumption].
      + intros a b Ha Hbr. destruct (better _ _); destruct Ha as [<-|[<-|Ha]]; try (apply H4; assumption);
          try (apply H1; [left; reflexivity|right; assumption]); apply H1; [right; assumption|right; assumption|right; assumption|right; assumption].
      + intros k Hk. destruct (better (spare_at size bs i) (spare_at size bs best)) eqn:Eb.
        * apply Hb in Eb. destruct Hk as [<-|[<-|Hk]].
          -- split; [apply Qle_refl|]. intros. lia.
          -- split; [lra|]. intros. lra.
          -- destruct (H3 k (or_intror Hk)) as [A1 A2]. split; [lra|]. intros. lra.
        * assert (Hn : f (spare_at size bs i) <= f (spare_at size bs best)).
          { destruct (Qlt_le_dec (f (spare_at size bs best)) (f (spare_at size bs i))) as [F|F]; [|assumption]. apply Hb in F. congruence. }
          destruct Hk as [<-|[<-|Hk]].
          -- split; [apply Qle_refl|]. intros. lia.
          -- split; [assumption|]. intros _. apply Nat.lt_le_incl. apply H1; left; reflexivity.
          -- apply H3. right. assumption.
  Qed.

  Lemma larger_lt : forall a b, larger a b = true <-> b < a.
  Proof.
    intros a b. unfold larger. rewrite negb_true_iff. split; intros H.
    - destruct (Qlt_le_dec b a); [assumption|]. apply Qle_bool_iff in q. congruence.
    - destruct (Qle_bool a b) eqn:E; [|reflexivity]. apply Qle_bool_iff in E. lra.
  Qed.
  Lemma smaller_lt : forall a b, smaller a b = true <-> - b < - a.
  Proof. intros a b. change (smaller a b) with (larger b a). rewrite larger_lt. split; lra. Qed.

  Lemma place_fit_fixed : forall better f bs x, (forall a b, better a b = true <-> f b < f a) ->
    (forall a b s, f (a - s) - f (b - s) == f a - f b) -> (forall a b, a == b -> f a == f b) ->
    (exists i, chosen (fun j => f (spare_at size bs j)) (feasible bs x) i /\
       place_fit size false upd det G better bs x = (true, update i (put_item x) bs, x)) \/
    ((forall j, feasible bs x j = false) /\ place_fit size false upd det G better bs x = (false, bs, x)).
  Proof.
    intros better f bs x Hb Hf Hfc.
    assert (Hcand : forall j, In j (candidates_of size bs x) <-> feasible bs x j = true).
    { intros j. unfold candidates_of. rewrite filter_In. unfold feasible. split; [tauto|]. intros H. split; [|assumption].
      apply in_seq. destruct (nth_error bs j) eqn:E; [|discriminate]. assert (j < length bs)%nat by (apply nth_error_Some; congruence). lia. }
    pose proof (fit_loop_all x (candidates_of size bs x) [] bs) as Hall. cbn [app] in Hall.
    specialize (Hall (NoDup_filter _ (seq_NoDup _ _)) (fun j Hj => proj1 (Hcand j) Hj)).
    assert (Hu : forall (x : A) (l : list A) (o : A), (fun _ : A => tt) (upd x l o) = (fun _ : A => tt) o) by reflexivity.
    assert (Hd : forall (x : A) (l : list A), (fun _ : A => tt) (det x l) = (fun _ : A => tt) x) by reflexivity.
    destruct (place_fit size false upd det G better bs x) as [[ok bs'] x'] eqn:E.
    pose proof (place_fit_spec size false upd det G (fun _ => tt) Hu Hd better bs x ok bs' x' E) as [_ HS].
    destruct ok.
    - left. destruct HS as [i [Hi [_ [H1 [i0 [r [bs1 [H2 H3]]]]]]]]. destruct (H1 eq_refl) as [-> [-> _]]. clear H1.
      exists i. split; [|reflexivity]. rewrite H2 in Hall. cbn [fst] in Hall.
      destruct (fit_loop_start size false upd det G (fun _ => tt) Hu Hd _ _ _ _ _ H2) as [[L I1] _].
      assert (Hsp : forall j, feasible bs x j = true -> spare_at size bs1 j == spare_at size bs j - size x).
      { intros j Hj. assert (Hj' : In j (i0 :: r)) by (rewrite Hall; apply Hcand; assumption).
        unfold feasible in Hj. unfold spare_at. destruct (nth_error bs j) as [b0|] eqn:F0; [|discriminate].
        destruct (nth_error bs1 j) as [b|] eqn:F1.
        - specialize (I1 j b0 b F0 F1). destruct (in_dec Nat.eq_dec j (i0 :: r)); [|contradiction]. destruct I1 as [_ [_ [_ T]]]. rewrite (T eq_refl).
          unfold spare_capacity, allocated_capacity. rewrite !sum_sizes_load. cbn [items max_capacity]. rewrite load_app. cbn [load]. ring.
        - apply nth_error_None in F1. assert (j < length bs)%nat by (apply nth_error_Some; congruence). lia. }
      assert (Hch : chosen (fun j => f (spare_at size bs1 j)) (feasible bs x) i).
      { split; [apply Hcand; assumption|]. intros j Hj. apply Hcand in Hj. rewrite <- Hall in Hj. subst i.
        assert (Hinc : incr (i0 :: r)) by (rewrite Hall; apply incr_filter; apply incr_seq). inversion Hinc as [|? ? HA HB]. clear Hinc.
        apply (select_first_chosen better f bs1 Hb r i0 []); try assumption.
        - intros a' b' [<-|[]]. apply HA.
        - intros k [<-|[]]. split; [apply Qle_refl|]. intros. lia. }
      apply chosen_ext with (key := fun j => f (spare_at size bs1 j)); [|assumption]. intros j k Hj Hk.
      cbn beta. rewrite <- (Hf (spare_at size bs j) (spare_at size bs k) (size x)). rewrite (Hfc _ _ (Hsp j Hj)), (Hfc _ _ (Hsp k Hk)). reflexivity.
    - right. unfold place_fit in E. fold (candidates_of size bs x) in E.
      destruct (fit_loop size false upd det G (candidates_of size bs x) [] bs x) as [[packed bs1] x1] eqn:EL. cbn [fst] in Hall.
      destruct packed as [|i r]; [|discriminate]. rewrite <- Hall in *. cbn in EL. inv EL. inv E. split; [|reflexivity].
      intros j. destruct (feasible bs' x' j) eqn:F; [|reflexivity]. apply Hcand in F. destruct F.
  Qed.

  Lemma id_shift : forall a b s : Q, (fun q => q) (a - s) - (fun q => q) (b - s) == (fun q => q) a - (fun q => q) b.
  Proof. intros. cbn beta. ring. Qed.
  Lemma opp_shift : forall a b s : Q, (fun q => - q) (a - s) - (fun q => - q) (b - s) == (fun q => - q) a - (fun q => - q) b.
  Proof. intros. cbn beta. ring. Qed.
  Lemma id_proper : forall a b : Q, a == b -> (fun q => q) a == (fun q => q) b.
  Proof. auto. Qed.
  Lemma opp_proper : forall a b : Q, a == b -> (fun q => - q) a == (fun q => - q) b.
  Proof. intros a b ->. reflexivity. Qed.

  Lemma feasible_range : forall bs x j, feasible bs x j = true -> (j < length bs)%nat.
  Proof. intros bs x j H. unfold feasible in H. apply nth_error_Some. destruct (nth_error bs j); congruence. Qed.

  Lemma spare_same : forall f better bs x, (forall a b, better a b = true <-> f b < f a) ->
    (forall a b s, f (a - s) - f (b - s) == f a - f b) -> (forall a b, a == b -> f a == f b) ->
    try_bins size false upd det G (sort_key_desc (fun i => f (spare_at size bs i)) (seq 0 (length bs))) bs x =
    place_fit size false upd det G better bs x.
  Proof.
    intros f better bs x Hb Hf Hfc. rewrite try_bins_fixed.
    destruct (find (feasible bs x) (sort_key_desc (fun i => f (spare_at size bs i)) (seq 0 (length bs)))) as [i|] eqn:E.
    - pose proof (find_sorted_chosen _ _ _ _ E (feasible_range bs x)) as Hc.
      destruct (place_fit_fixed better f bs x Hb Hf Hfc) as [[j [Hj ->]]|[Hn _]].
      + rewrite (chosen_unique _ _ _ _ Hc Hj). reflexivity.
      + destruct Hc as [Hc _]. rewrite Hn in Hc. discriminate.
    - pose proof (find_sorted_none _ _ _ E (feasible_range bs x)) as Hn.
      destruct (place_fit_fixed better f bs x Hb Hf Hfc) as [[j [[Hj _] _]]|[_ ->]]; [rewrite Hn in Hj; discriminate|reflexivity].
  Qed.

  Lemma max_spare_worst : forall bs x, place_max_spare size false upd det G bs x = place_worst size false upd det G bs x.
  Proof.
    intros bs x. unfold place_max_spare, place_worst. apply (spare_same (fun q => q)).
    - exact larger_lt.
    - intros. ring.
    - auto.
  Qed.
  Lemma min_spare_best : forall bs x, place_min_spare size false upd det G bs x = place_best size false upd det G bs x.
  Proof.
    intros bs x. unfold place_min_spare, place_best. apply (spare_same (fun q => - q)).
    - exact smaller_lt.
    - intros. ring.
    - intros a b ->. reflexivity.
  Qed.

  (** binpack with the two classes is the same function *)
  Lemma binpack_loop_ext : forall h h' mk raises, (forall bs cur x, try_to_place_item size false upd det G h bs cur x = try_to_place_item size false upd det G h' bs cur x) ->
    forall todo bs cur mis count, binpack_loop size false upd det G h mk raises todo bs cur mis count = binpack_loop size false upd det G h' mk raises todo bs cur mis count.
  Proof.
    intros h h' mk raises H. induction todo as [|x r IH]; intros; cbn [binpack_loop]; [reflexivity|].
    unfold place_or_open. rewrite H. destruct (try_to_place_item size false upd det G h' bs cur x) as [[[ok b1] x1] c1].
    destruct ok; [apply IH|]. destruct mk as [b|].
    - destruct (try_to_add size false upd det G (b1 ++ [b]) (length b1) x1) as [[ok b2] x2]. destruct ok; [apply IH|]. destruct (raises x2); [reflexivity|apply IH].
    - destruct (raises x1); [reflexivity|apply IH].
  Qed.

  (** *** Equal capacities: the runs of SpecBinpack *)
  Definition rule_of (cap : Q) (h : heuristic) : rule :=
    match h with
    | FirstFit | NextFit => first_rule cap
    | WorstFit | MaxSpareCapacity => worst_rule cap
    | BestFit | MinSpareCapacity => best_rule cap
    end.

  Definition loads (bs : list (@bin A)) : list Q := map (load size) (contents bs).

  Lemma feasible_fits : forall cap bs x i, Forall (fun b => max_capacity b = cap) bs -> (feasible bs x i = true <-> fits cap (loads bs) (size x) i).
  Proof.
    intros cap bs x i HF. unfold feasible, fits, loads, contents. split.
    - destruct (nth_error bs i) as [b|] eqn:E; [|discriminate]. intros H. apply negb_true_iff in H. apply feasible_le in H.
      exists (load size (items b)). rewrite !nth_error_map, E. split; [reflexivity|].
      rewrite Forall_forall in HF. rewrite (HF b (nth_error_In _ _ E)) in H. assumption.
    - intros [l [H1 H2]]. rewrite !nth_error_map in H1. destruct (nth_error bs i) as [b|] eqn:E; [|discriminate]. cbn in H1. inv H1.
      apply negb_true_iff. apply feasible_le. rewrite Forall_forall in HF. rewrite (HF b (nth_error_In _ _ E)). assumption.
  Qed.

  Lemma spare_load : forall cap bs i l, Forall (fun b => max_capacity b = cap) bs -> nth_error (loads bs) i = Some l -> spare_at size bs i == cap - l.
  Proof.
    intros cap bs i l HF H. unfold loads, contents in H. rewrite !nth_error_map in H. unfold spare_at.
    destruct (nth_error bs i) as [b|] eqn:E; [|discriminate]. cbn in H. inv H. unfold spare_capacity, allocated_capacity. rewrite sum_sizes_load.
    rewrite Forall_forall in HF. rewrite (HF b (nth_error_In _ _ E)). reflexivity.
  Qed.

  Lemma find_seq_first : forall P n i, find P (seq 0 n) = Some i -> P i = true /\ forall j, (j < i)%nat -> P j = false.
  Proof.
    intros P n i H. apply find_first_in in H. destruct H as [l1 [l2 [H1 [H2 H3]]]]. split; [assumption|]. intros j Hj. apply H3.
    assert (Hi : incr (l1 ++ i :: l2)) by (rewrite <- H1; apply incr_seq).
    assert (Hin : In j (l1 ++ i :: l2)).
    { rewrite <- H1. apply in_seq. assert (In i (seq 0 n)) by (rewrite H1; apply in_or_app; right; left; reflexivity). apply in_seq in H. lia. }
    apply in_app_or in Hin. destruct Hin as [Hin|[Hin|Hin]]; [assumption|lia|]. exfalso. clear -Hi Hin Hj.
    induction l1; cbn in Hi; inv Hi; [specialize (H1 j Hin); lia|auto].
  Qed.

  Lemma place_rule : forall cap h bs cur x ok bs' x' cur', h <> NextFit -> Forall (fun b => max_capacity b = cap) bs ->
    try_to_place_item size false upd det G h bs cur x = (ok, bs', x', cur') -> x' = x /\
    if ok then exists i, rule_of cap h (loads bs) (size x) (Some i) /\ bs' = update i (put_item x) bs
    else rule_of cap h (loads bs) (size x) None /\ bs' = bs.
  Proof.
    intros cap h bs cur x ok bs' x' cur' Hh HF H.
    assert (Hmis : (forall j, feasible bs x j = false) -> misfit_iff cap (loads bs) (size x)).
    { intros Hn j F. apply (feasible_fits cap bs x j HF) in F. rewrite Hn in F. discriminate. }
    assert (Hworst : forall i, chosen (spare_at size bs) (feasible bs x) i -> worst_rule cap (loads bs) (size x) (Some i)).
    { intros i [H1 H2]. split; [apply (feasible_fits cap); assumption|]. intros j li lj Fj Ei Ej. apply (feasible_fits cap bs x j HF) in Fj.
      destruct (H2 j Fj) as [A1 A2]. rewrite (spare_load cap bs i li HF Ei) in A1, A2. rewrite (spare_load cap bs j lj HF Ej) in A1, A2.
      split; [lra|]. intros E. apply A2. lra. }
    assert (Hbest : forall i, chosen (fun j => - spare_at size bs j) (feasible bs x) i -> best_rule cap (loads bs) (size x) (Some i)).
    { intros i [H1 H2]. split; [apply (feasible_fits cap); assumption|]. intros j li lj Fj Ei Ej. apply (feasible_fits cap bs x j HF) in Fj.
      destruct (H2 j Fj) as [A1 A2]. rewrite (spare_load cap bs i li HF Ei) in A1, A2. rewrite (spare_load cap bs j lj HF Ej) in A1, A2.
      split; [lra|]. intros E. apply A2. lra. }
    assert (HW : forall r, place_worst size false upd det G bs x = r -> r = (ok, bs', x') -> x' = x /\
      if ok then exists i, worst_rule cap (loads bs) (size x) (Some i) /\ bs' = update i (put_item x) bs else misfit_iff cap (loads bs) (size x) /\ bs' = bs).
    { intros r E Er. subst r. unfold place_worst in Er.
      destruct (place_fit_fixed larger (fun q => q) bs x larger_lt id_shift id_proper) as [[i [Hi E]]|[Hn E]]; rewrite E in Er; inv Er; split; auto.
      exists i. split; [apply Hworst; assumption|reflexivity]. }
    assert (HB : forall r, place_best size false upd det G bs x = r -> r = (ok, bs', x') -> x' = x /\
      if ok then exists i, best_rule cap (loads bs) (size x) (Some i) /\ bs' = update i (put_item x) bs else misfit_iff cap (loads bs) (size x) /\ bs' = bs).
    { intros r E Er. subst r. unfold place_best in Er.
      destruct (place_fit_fixed smaller (fun q => - q) bs x smaller_lt opp_shift opp_proper) as [[i [Hi E]]|[Hn E]]; rewrite E in Er; inv Er; split; auto.
      exists i. split; [apply Hbest; assumption|reflexivity]. }
    destruct h; cbn [try_to_place_item rule_of] in *; try injection H as H _.
    - congruence.
    - unfold place_first in H. rewrite try_bins_fixed in H. destruct (find (feasible bs x) (seq 0 (length bs))) as [i|] eqn:E; inv H; split; try reflexivity.
      + exists i. split; [|reflexivity]. apply find_seq_first in E. destruct E as [E1 E2]. split; [apply (feasible_fits cap); assumption|].
        intros j Hj F. apply (feasible_fits cap _ _ _ HF) in F. rewrite (E2 j Hj) in F. discriminate.
      + split; [|reflexivity]. apply Hmis. intros j. destruct (feasible bs' x' j) eqn:F; [|reflexivity]. rewrite <- F. apply (find_none _ _ E).
        apply in_seq. apply feasible_range in F. lia.
    - exact (HW _ eq_refl H).
    - exact (HB _ eq_refl H).
    - rewrite max_spare_worst in H. exact (HW _ eq_refl H).
    - rewrite min_spare_best in H. exact (HB _ eq_refl H).
  Qed.

  Lemma rule_of_fits : forall cap h ls c i, rule_of cap h ls c (Some i) -> fits cap ls c i.
  Proof. intros cap h ls c i H. destruct h; destruct H as [H _]; exact H. Qed.

  Lemma binpack_loop_run : forall cap h, h <> NextFit -> forall todo bs cur mis count s n raised, Forall (fun b => max_capacity b = cap) bs ->
    binpack_loop size false upd det G h None (fun _ => false) todo bs cur mis count = (s, n, raised) ->
    exists rep, misfits s = mis ++ rep /\ run size (rule_of cap h) todo (contents bs) (contents (bins s)) rep.
  Proof.
    intros cap h Hh. induction todo as [|x r IH]; intros bs cur mis count s n raised HF H; cbn [binpack_loop] in H.
    - inv H. exists []. rewrite app_nil_r. split; [reflexivity|constructor].
    - unfold place_or_open in H. destruct (try_to_place_item size false upd det G h bs cur x) as [[[ok b1] x1] c1] eqn:E.
      destruct (place_rule cap h bs cur x ok b1 x1 c1 Hh HF E) as [-> HR]. destruct ok.
      + destruct HR as [i [HR ->]]. destruct (rule_of_fits _ _ _ _ _ HR) as [l [El _]].
        assert (Ei : exists b, nth_error bs i = Some b).
        { unfold loads, contents in El. rewrite !nth_error_map in El. destruct (nth_error bs i) as [b|]; [exists b; reflexivity|discriminate]. }
        destruct Ei as [b Eb]. destruct (update_split _ (put_item x) _ _ _ Eb) as [pre [post [L1 [L2 L3]]]].
        rewrite L3 in H. apply IH in H.
        * destruct H as [rep [H1 H2]]. exists rep. split; [assumption|]. unfold loads in HR. rewrite L2 in *. unfold contents in *. rewrite map_app in *. cbn [map] in *.
          rewrite <- L1 in HR. rewrite <- (map_length (@items A) pre) in HR. apply run_place; assumption.
        * rewrite L2 in HF. apply Forall_app in HF. destruct HF as [F1 F2]. inv F2. apply Forall_app. split; [assumption|]. constructor; [reflexivity|assumption].
      + destruct HR as [HR ->]. apply IH in H; [|assumption]. destruct H as [rep [H1 H2]]. exists (x :: rep).
        split; [rewrite H1, <- app_assoc; reflexivity|]. apply run_report; assumption.
  Qed.

  Lemma rule_functional : forall cap h ls c d d', rule_of cap h ls c d -> rule_of cap h ls c d' -> d = d'.
  Proof.
    assert (H0 : forall cap ls c i, fits cap ls c i -> misfit_iff cap ls c -> False) by (intros cap ls c i F M; exact (M i F)).
    assert (HN : forall cap ls c i, fits cap ls c i -> exists l, nth_error ls i = Some l) by (intros cap ls c i [l [E _]]; exists l; assumption).
    assert (HF : forall cap ls c d d', first_rule cap ls c d -> first_rule cap ls c d' -> d = d').
    { intros cap ls c [i|] [j|]; cbn; intros A1 A2; [| | |reflexivity].
      - destruct A1 as [A1 A1'], A2 as [A2 A2']. f_equal. destruct (Nat.lt_trichotomy i j) as [F|[F|F]]; [|assumption|]; exfalso; [apply (A2' i F A1)|apply (A1' j F A2)].
      - exfalso. destruct A1. eauto.
      - exfalso. destruct A2. eauto. }
    assert (HW : forall cap ls c d d', worst_rule cap ls c d -> worst_rule cap ls c d' -> d = d').
    { intros cap ls c [i|] [j|]; cbn; intros A1 A2; [| | |reflexivity].
      - destruct A1 as [A1 A1'], A2 as [A2 A2']. destruct (HN _ _ _ _ A1) as [li Ei]. destruct (HN _ _ _ _ A2) as [lj Ej].
        destruct (A1' j li lj A2 Ei Ej) as [B1 B2]. destruct (A2' i lj li A1 Ej Ei) as [C1 C2].
        assert (E : li == lj) by lra. specialize (B2 E). symmetry in E. specialize (C2 E). f_equal. lia.
      - exfalso. destruct A1. eauto.
      - exfalso. destruct A2. eauto. }
    assert (HB : forall cap ls c d d', best_rule cap ls c d -> best_rule cap ls c d' -> d = d').
    { intros cap ls c [i|] [j|]; cbn; intros A1 A2; [| | |reflexivity].
      - destruct A1 as [A1 A1'], A2 as [A2 A2']. destruct (HN _ _ _ _ A1) as [li Ei]. destruct (HN _ _ _ _ A2) as [lj Ej].
        destruct (A1' j li lj A2 Ei Ej) as [B1 B2]. destruct (A2' i lj li A1 Ej Ei) as [C1 C2].
        assert (E : li == lj) by lra. specialize (B2 E). symmetry in E. specialize (C2 E). f_equal. lia.
      - exfalso. destruct A1. eauto.
      - exfalso. destruct A2. eauto. }
    intros cap h. destruct h; cbn [rule_of]; first [apply HF|apply HW|apply HB].
  Qed.

  Lemma app_split_eq : forall B (a b c d : list B) x y, a ++ x :: b = c ++ y :: d -> length a = length c -> a = c /\ x = y /\ b = d.
  Proof.
    induction a as [|z a IH]; intros b [|w c] d x y H L; cbn in *; try discriminate.
    - inv H. auto.
    - inv H. destruct (IH _ _ _ _ _ H2) as [-> [-> ->]]; [lia|]. auto.
  Qed.

  Lemma run_functional : forall cap h todo bs b1 r1, run size (rule_of cap h) todo bs b1 r1 ->
    forall b2 r2, run size (rule_of cap h) todo bs b2 r2 -> b1 = b2 /\ r1 = r2.
  Proof.
    intros cap h todo bs b1 r1 H. induction H as [bs|x todo pre b post b1 r1 HR H IH|x todo bs b1 r1 HR H IH]; intros b2 r2 H2.
    - inv H2. auto.
    - remember (pre ++ b :: post) as bs0 eqn:Ebs. inversion H2 as [|x' t' pre' b' post' bb rr HR2 H2' E1 E2|x' t' bb bb' rr HR2 H2']; subst x' t'.
      + rewrite E2 in HR2. pose proof (rule_functional _ _ _ _ _ _ HR HR2) as E. injection E as E. rewrite Ebs in E2.
        destruct (app_split_eq _ _ _ _ _ _ _ E2) as [-> [-> ->]]; [congruence|]. apply IH. congruence.
      + pose proof (rule_functional _ _ _ _ _ _ HR HR2) as E. discriminate.
    - inversion H2 as [|x' t' pre' b' post' bb rr HR2 H2' E1 E2|x' t' bb bb' rr HR2 H2']; subst x' t'.
      + rewrite E2 in HR2. pose proof (rule_functional _ _ _ _ _ _ HR HR2) as E. discriminate.
      + destruct (IH _ _ H2') as [-> ->]. auto.
  Qed.
End Fixed.
