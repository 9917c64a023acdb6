(** The verdict of the global EDF tests does not depend on the order of the
    tasks (without a round limit and with unit steps for the iterative ones). *)
From Coq Require Import ZArith QArith List Bool Lia Psatz Permutation.
From Verif Require Import Base ModelTasks SpecUni SpecQPA ProofUni ModelGEDF ProofGEDF ProofGEDFIter ProofGEDFRta ProofGEDFNative.
Import ListNotations.
Open Scope Z_scope.

(** ** GFB and BAK *)
Lemma qsum_perm : forall l l', Permutation l l' -> (qsum l == qsum l')%Q.
Proof.
  induction 1; cbn [qsum fold_right]; try fold (qsum l) (qsum l'); try fold (qsum l).
  - reflexivity.
  - rewrite IHPermutation. reflexivity.
  - ring.
  - rewrite IHPermutation1. assumption.
Qed.

Lemma max_list_spec : forall l a, (a <= max_list a l)%Q /\ (forall x, In x l -> (x <= max_list a l)%Q) /\ (max_list a l = a \/ In (max_list a l) l).
Proof.
  unfold max_list. induction l as [|y l IH]; intros a; cbn [fold_left].
  - split; [lra|]. split; [intros ? []|left; reflexivity].
  - destruct (Qle_bool y a) eqn:E; cbn [negb].
    + apply Qle_bool_iff in E. destruct (IH a) as [H1 [H2 H3]]. split; [assumption|]. split.
      * intros x [<-|Hx]; [lra|auto].
      * destruct H3; [left; assumption|right; right; assumption].
    + assert (L : (a < y)%Q) by (apply Qnot_le_lt; rewrite <- Qle_bool_iff; congruence). destruct (IH y) as [H1 [H2 H3]]. split; [lra|]. split.
      * intros x [<-|Hx]; [assumption|auto].
      * destruct H3 as [->|H3]; [right; left; reflexivity|right; right; assumption].
Qed.

Lemma max_list_perm : forall a l a' l', Permutation (a :: l) (a' :: l') -> (max_list a l == max_list a' l')%Q.
Proof.
  assert (G : forall a l a' l', Permutation (a :: l) (a' :: l') -> (max_list a l <= max_list a' l')%Q).
  { intros a l a' l' H. destruct (max_list_spec l a) as [_ [_ H3]]. destruct (max_list_spec l' a') as [H1 [H2 _]].
    assert (I : In (max_list a l) (a' :: l')).
    { eapply Permutation_in; [exact H|]. destruct H3 as [->|H3]; [left; reflexivity|right; assumption]. }
    destruct I as [<-|I]; [assumption|auto]. }
  intros. apply Qle_antisym; [apply G; assumption|apply G; symmetry; assumption].
Qed.

Lemma gfb_perm : forall m ts ts', Permutation ts ts' -> gfb_test m ts = gfb_test m ts'.
Proof.
  intros m ts ts' H. destruct ts as [|t r]; destruct ts' as [|t' r'].
  - reflexivity.
  - apply Permutation_nil_cons in H. contradiction.
  - symmetry in H. apply Permutation_nil_cons in H. contradiction.
  - unfold gfb_test. apply Qle_bool_congr.
    + unfold ts_density. apply qsum_perm. apply Permutation_map. assumption.
    + assert (E : (max_list (density t) (map density r) == max_list (density t') (map density r'))%Q).
      { apply max_list_perm. change (Permutation (map density (t :: r)) (map density (t' :: r'))). apply Permutation_map. assumption. }
      rewrite E. reflexivity.
Qed.

Lemma forallb_perm : forall A (f : A -> bool) l l', Permutation l l' -> forallb f l = forallb f l'.
Proof.
  intros A f l l' H. apply eq_true_iff_eq. rewrite !forallb_forall. split; intros X x Hx; apply X; eapply Permutation_in; eassumption || (symmetry; eassumption).
Qed.

Lemma bak_perm : forall m ts ts', Permutation ts ts' -> bak_test m ts = bak_test m ts'.
Proof.
  intros m ts ts' H. unfold bak_test. rewrite (forallb_perm _ _ ts ts' H).
  assert (E : forall t, bak_task ts t m = bak_task ts' t m).
  { intros t. unfold bak_task. destruct (negb (Qle_bool (density t) 1)); [reflexivity|]. apply Qle_bool_congr; [|reflexivity].
    apply qsum_perm. apply Permutation_map. assumption. }
  apply eq_true_iff_eq. rewrite !forallb_forall. split; intros X x Hx; [rewrite <- E|rewrite E]; auto.
Qed.

(** ** RTA: configurations as lists of tasks with their slack *)
Definition conf := list (task * Z).

Section Order.
  Variable m : Z.

  Definition est' (t : task) (oth : conf) (R : Z) : Z :=
    t_cost t + zsum (map (fun p => Z.min (Z.min (rta_interfering_workload R (fst p) (snd p))
                                   (edf_interfering_workload (t_deadline t) (fst p) (snd p))) (R - t_cost t + 1)) oth) / m.

  Definition good (t : task) (oth : conf) (r : Z) : Prop := t_cost t <= r <= t_deadline t /\ est' t oth r <= r.

  (** slack values that can be justified, in any order of the updates *)
  Inductive cder (ts : taskset) : conf -> Prop :=
  | cder_0 : cder ts (map (fun t => (t, 0)) ts)
  | cder_S : forall l1 t v l2 r, cder ts (l1 ++ (t, v) :: l2) -> good t (l1 ++ l2) r ->
      cder ts (l1 ++ (t, Z.max v (t_deadline t - r)) :: l2).

  Definition accepts (ts : taskset) : Prop := exists c, cder ts c /\
    forall l1 t v l2, c = l1 ++ (t, v) :: l2 -> exists r, good t (l1 ++ l2) r.

  Lemma good_perm : forall t a b r, Permutation a b -> good t a r -> good t b r.
  Proof.
    intros t a b r H [H1 H2]. split; [assumption|]. unfold est' in *. rewrite <- (zsum_perm _ _ (Permutation_map _ H)). assumption.
  Qed.

  Lemma cder_perm : forall ts c, cder ts c -> forall ts', Permutation ts ts' -> exists c', cder ts' c' /\ Permutation c c'.
  Proof.
    induction 1 as [|l1 t v l2 r H IH Hg]; intros ts' Hp.
    - exists (map (fun t => (t, 0)) ts'). split; [constructor|]. apply Permutation_map. assumption.
    - destruct (IH ts' Hp) as [c' [C1 C2]].
      destruct (in_split (t, v) c') as [d1 [d2 E]]; [eapply Permutation_in; [exact C2|]; apply in_or_app; right; left; reflexivity|].
      subst c'. apply Permutation_app_inv in C2.
      exists (d1 ++ (t, Z.max v (t_deadline t - r)) :: d2). split; [constructor; [assumption|eapply good_perm; eassumption]|].
      apply Permutation_elt. assumption.
  Qed.

  Lemma accepts_perm : forall ts ts', Permutation ts ts' -> accepts ts -> accepts ts'.
  Proof.
    intros ts ts' Hp [c [H1 H2]]. destruct (cder_perm ts c H1 ts' Hp) as [c' [C1 C2]]. exists c'. split; [assumption|].
    intros l1 t v l2 E. subst c'. symmetry in C2.
    destruct (in_split (t, v) c) as [d1 [d2 E]]; [eapply Permutation_in; [exact C2|]; apply in_or_app; right; left; reflexivity|].
    destruct (H2 d1 t v d2 E) as [r Hr]. exists r. subst c. apply Permutation_app_inv in C2. eapply good_perm; [symmetry; exact C2|exact Hr].
  Qed.

  (** *** positional form *)
  Section Pos.
    Variable ts : taskset.
    Let n := length ts.
    Hypothesis Hm : 1 <= m.
    Hypothesis Hw : Forall wf_task ts.
    Hypothesis Hf : Forall feasible ts.
    Hypothesis Hc : Forall constrained ts.

    Definition pgood (k : nat) (s : list Z) (r : Z) : Prop :=
      t_cost (nth k ts dt) <= r <= t_deadline (nth k ts dt) /\ rest m ts k s r <= r.

    Inductive pder : list Z -> Prop :=
    | pder_0 : pder (map (fun _ => 0) ts)
    | pder_S : forall s k r, pder s -> (k < n)%nat -> pgood k s r -> pder (set_nth k (Z.max (nth k s 0) (t_deadline (nth k ts dt) - r)) s).

    Lemma pder_length : forall s, pder s -> length s = n.
    Proof using. induction 1; [apply map_length|]. rewrite set_nth_length; [assumption|]. rewrite IHpder. assumption. Qed.

    Lemma split_at : forall s k, length s = n -> (k < n)%nat ->
      combine ts s = firstn k (combine ts s) ++ (nth k ts dt, nth k s 0) :: skipn (S k) (combine ts s).
    Proof using.
      intros s k Ls Hk. assert (L : length (combine ts s) = n) by (rewrite combine_length, Ls; apply Nat.min_id).
      rewrite <- (firstn_skipn k (combine ts s)) at 1. f_equal.
      assert (E : nth k (combine ts s) (dt, 0) = (nth k ts dt, nth k s 0)) by (apply combine_nth; symmetry; assumption).
      rewrite <- E. clear E. rewrite <- L in Hk. clear L Ls. revert k Hk. induction (combine ts s) as [|x l IH]; intros k Hk; [cbn in Hk; lia|].
      destruct k as [|k]; [reflexivity|]. cbn [skipn nth]. apply IH. cbn in Hk. lia.
    Qed.

    Lemma combine_set : forall (s : list Z) k v, length s = n -> (k < n)%nat ->
      combine ts (set_nth k v s) = firstn k (combine ts s) ++ (nth k ts dt, v) :: skipn (S k) (combine ts s).
    Proof using.
      intros s k v Ls Hk. assert (Ls' : length (set_nth k v s) = n) by (rewrite set_nth_length; [assumption|rewrite Ls; assumption]).
      rewrite (split_at _ k Ls' Hk). rewrite nth_set_nth, Nat.eqb_refl by (rewrite Ls; assumption).
      assert (Hks : (k < length s)%nat) by (rewrite Ls; assumption). clear Ls' Hk. unfold set_nth. f_equal; [|f_equal].
      - revert k Hks. clear Ls. revert s. generalize ts as l. induction l as [|t l IH]; intros s k Hks; [cbn; rewrite !firstn_nil; reflexivity|].
        destruct s as [|x s]; [cbn in Hks; lia|]. destruct k as [|k]; [reflexivity|]. cbn [firstn app skipn combine]. f_equal. apply IH. cbn in Hks. lia.
      - revert k Hks. clear Ls. revert s. generalize ts as l. induction l as [|t l IH]; intros s k Hks; [cbn; destruct k; reflexivity|].
        destruct s as [|x s]; [cbn in Hks; lia|]. destruct k as [|k]; [reflexivity|].
        change (skipn (S k) (combine l (firstn k s ++ v :: skipn (S k) s)) = skipn (S k) (combine l s)). apply IH. cbn in Hks. lia.
    Qed.

    Lemma pgood_good : forall k s r, pgood k s r <-> good (nth k ts dt) (firstn k (combine ts s) ++ skipn (S k) (combine ts s)) r.
    Proof using. intros. unfold pgood, good, rest, response_estimate, est', others. tauto. Qed.

    Lemma combine_zero : combine ts (map (fun _ => 0) ts) = map (fun t => (t, 0%Z)) ts.
    Proof using. clear. induction ts as [|t l IH]; cbn; [reflexivity|]. f_equal. exact IH. Qed.

    Lemma pder_cder : forall s, pder s -> cder ts (combine ts s).
    Proof using.
      induction 1 as [|s k r H IH Hk Hg].
      - rewrite combine_zero. constructor.
      - pose proof (pder_length s H) as Ls. rewrite combine_set by assumption. apply cder_S; [|apply pgood_good; assumption].
        rewrite <- split_at by assumption. assumption.
    Qed.

    Lemma list_split_pos : forall A (l1 l2 : list A) x, firstn (length l1) (l1 ++ x :: l2) = l1 /\ skipn (S (length l1)) (l1 ++ x :: l2) = l2.
    Proof using. clear. intros A l1 l2 x. induction l1 as [|y l1 [I1 I2]]; [split; reflexivity|]. cbn [length app firstn]. split; [f_equal; assumption|exact I2]. Qed.

    Lemma split_inv : forall s l1 t v l2, length s = n -> combine ts s = l1 ++ (t, v) :: l2 ->
      (length l1 < n)%nat /\ t = nth (length l1) ts dt /\ v = nth (length l1) s 0 /\
      firstn (length l1) (combine ts s) = l1 /\ skipn (S (length l1)) (combine ts s) = l2.
    Proof using.
      intros s l1 t v l2 Ls E. assert (L : length (combine ts s) = n) by (rewrite combine_length, Ls; apply Nat.min_id).
      assert (Hk : (length l1 < n)%nat) by (rewrite <- L, E, app_length; cbn; lia).
      assert (X : nth (length l1) (combine ts s) (dt, 0) = (t, v)) by (rewrite E, app_nth2, Nat.sub_diag by lia; reflexivity).
      rewrite combine_nth in X by (symmetry; assumption). injection X as X1 X2.
      destruct (list_split_pos _ l1 l2 (t, v)) as [Y1 Y2]. rewrite E. auto.
    Qed.

    Lemma cder_pder : forall c, cder ts c -> exists s, pder s /\ c = combine ts s.
    Proof using.
      induction 1 as [|l1 t v l2 r H [s [IH E]] Hg].
      - exists (map (fun _ => 0) ts). split; [constructor|]. symmetry. apply combine_zero.
      - pose proof (pder_length s IH) as Ls. symmetry in E. destruct (split_inv s l1 t v l2 Ls E) as [Hk [Et [Ev [E1 E2]]]].
        exists (set_nth (length l1) (Z.max (nth (length l1) s 0) (t_deadline (nth (length l1) ts dt) - r)) s). split.
        + apply pder_S; [assumption|assumption|]. apply pgood_good. rewrite E1, E2, <- Et. assumption.
        + rewrite combine_set by assumption. rewrite E1, E2, <- Et, <- Ev. reflexivity.
    Qed.

    Definition paccepts : Prop := exists s, pder s /\ forall k, (k < n)%nat -> exists r, pgood k s r.

    Lemma accepts_pos : accepts ts <-> paccepts.
    Proof using.
      split.
      - intros [c [H1 H2]]. destruct (cder_pder c H1) as [s [S1 ->]]. exists s. split; [assumption|]. intros k Hk.
        destruct (H2 _ _ _ _ (split_at s k (pder_length s S1) Hk)) as [r Hr]. exists r. apply pgood_good. assumption.
      - intros [s [H1 H2]]. exists (combine ts s). split; [apply pder_cder; assumption|]. intros l1 t v l2 E.
        destruct (split_inv s l1 t v l2 (pder_length s H1) E) as [Hk [Et [Ev [E1 E2]]]].
        destruct (H2 _ Hk) as [r Hr]. exists r. apply (proj1 (pgood_good _ _ _)) in Hr. rewrite E1, E2, <- Et in Hr. assumption.
    Qed.

    (** *** the run of the model *)
    Lemma pgood_mono : forall k a b r, (k < n)%nat -> length a = n -> le_vec a b -> pgood k a r -> pgood k b r.
    Proof using Hm Hw Hf Hc.
      intros k a b r Hk La H [H1 H2]. split; [assumption|]. eapply Z.le_trans; [|exact H2]. apply rest_mono; try assumption. lia.
    Qed.

    Lemma ofold : forall ffuel delta l s f u s' f' u', delta <= 1 -> (forall p, In p l -> (fst p < n)%nat /\ snd p = nth (fst p) ts dt) ->
      rMon m ts s -> pder s -> fold_left (rta_step ffuel m delta ts) l (Some (s, f, u)) = Some (s', f', u') ->
      rMon m ts s' /\ pder s' /\ le_vec s s' /\ (f' = true -> f = true /\ forall p, In p l -> exists r, pgood (fst p) s' r).
    Proof using Hm Hw Hf Hc.
      intros ffuel delta l. induction l as [|[k t] l IH]; intros s f u s' f' u' Hd Hl Hs Hder H.
      - cbn in H. injection H as <- <- <-. split; [assumption|]. split; [assumption|]. split; [apply le_vec_refl|]. intros ->. split; [reflexivity|intros ? []].
      - cbn [fold_left] in H. destruct (Hl (k, t) (or_introl eq_refl)) as [Hk Ht]. cbn [fst snd] in Hk, Ht. subst t.
        destruct (rta_step ffuel m delta ts (Some (s, f, u)) (k, nth k ts dt)) as [[[s1 f1] u1]|] eqn:E; [|rewrite fold_none in H; discriminate].
        pose proof (rmon_fold m ts Hm Hw Hf Hc ffuel delta [(k, nth k ts dt)] s f u s1 f1 u1 Hd) as M. cbn [fold_left] in M.
        destruct (M ltac:(intros p [<-|[]]; cbn; auto) Hs E) as [M1 _].
        apply rta_step_cases in E; [|assumption|apply Hs]. destruct E as [r [Er [[R1 [R2 [R3 R4]]]|[R1 [R2 [R3 R4]]]]]].
        + pose proof (rta_fixpoint_result m ts Hm Hw Hf Hc ffuel delta k s r Hk (proj1 Hs) Er) as [F1 F2]. specialize (F2 R1).
          assert (Pg : pgood k s r) by (split; lia).
          assert (Hup : nth k s 0 <= t_deadline (nth k ts dt) - r).
          { destruct Hs as [Is Hsup]. destruct (Hsup k Hk) as [X|[s0 [A1 [A2 A3]]]]; [lia|].
            assert (r <= t_deadline (nth k ts dt) - nth k s 0); [|lia].
            apply (rta_fixpoint_least m ts Hm Hw Hf Hc ffuel delta k s r _ Hd Hk Is); [destruct Is as [_ Is]; specialize (Is k Hk); lia| |exact Er].
            eapply Z.le_trans; [|exact A3]. apply rest_mono; try assumption. lia. }
          assert (Ls : length s = n) by (apply Hs).
          assert (D1 : pder s1).
          { rewrite R2. rewrite <- (Z.max_r _ _ Hup). apply pder_S; assumption. }
          assert (Hle : le_vec s s1) by (rewrite R2; apply set_nth_le; [rewrite Ls; assumption|assumption]).
          destruct (IH s1 f1 u1 s' f' u' Hd (fun p Hp => Hl p (or_intror Hp)) M1 D1 H) as [I1 [I2 [I3 I4]]].
          split; [assumption|]. split; [assumption|]. split; [eapply le_vec_trans; eassumption|]. intros Ef. destruct (I4 Ef) as [I5 I6].
          split; [congruence|]. intros p [<-|Hp]; [|auto]. cbn [fst]. exists r. eapply pgood_mono; [assumption|exact Ls| |exact Pg]. eapply le_vec_trans; eassumption.
        + subst s1 f1 u1. destruct (IH s false u s' f' u' Hd (fun p Hp => Hl p (or_intror Hp)) Hs Hder H) as [I1 [I2 [I3 I4]]].
          split; [assumption|]. split; [assumption|]. split; [assumption|]. intros Ef. destruct (I4 Ef). discriminate.
    Qed.

    Lemma set_nth_eq : forall k v s, (k < length s)%nat -> set_nth k v s = s -> v = nth k s 0.
    Proof using. clear. intros k v s H E. rewrite <- E, nth_set_nth, Nat.eqb_refl by assumption. reflexivity. Qed.

    (** a round without update leaves every slack value at its fixpoint *)
    Lemma stable_fold : forall ffuel delta l s f s' f', (forall p, In p l -> (fst p < n)%nat /\ snd p = nth (fst p) ts dt) ->
      fold_left (rta_step ffuel m delta ts) l (Some (s, f, false)) = Some (s', f', false) ->
      s' = s /\ forall p, In p l -> exists r, rta_fixpoint ffuel (fst p) (snd p) ts s m delta = Some r /\
        (r <= t_deadline (snd p) -> nth (fst p) s 0 = t_deadline (snd p) - r).
    Proof using.
      intros ffuel delta l. induction l as [|[k t] l IH]; intros s f s' f' Hl H.
      - cbn in H. injection H as <- <-. split; [reflexivity|intros ? []].
      - cbn [fold_left] in H. cbn [rta_step] in H.
        destruct (rta_fixpoint ffuel k t ts s m delta) as [r|] eqn:Er; [|rewrite fold_none in H; discriminate].
        assert (T : forall l s f s' f', fold_left (rta_step ffuel m delta ts) l (Some (s, f, true)) = Some (s', f', false) -> False).
        { clear. induction l as [|[k t] l IH]; intros s f s' f' H; cbn [fold_left] in H; [discriminate|].
          cbn [rta_step] in H. destruct (rta_fixpoint ffuel k t ts s m delta) as [r|]; [|rewrite fold_none in H; discriminate].
          destruct (r <=? t_deadline t); [destruct (negb (t_deadline t - r =? nth k s 0))|]; eapply IH; exact H. }
        destruct (Z.leb_spec r (t_deadline t)).
        + destruct (Z.eqb_spec (t_deadline t - r) (nth k s 0)); cbn [negb] in H; [|exfalso; eapply T; exact H].
          destruct (IH s f s' f' (fun p Hp => Hl p (or_intror Hp)) H) as [I1 I2]. split; [assumption|]. intros p [<-|Hp]; [|auto].
          cbn [fst snd]. exists r. split; [assumption|lia].
        + destruct (IH s false s' f' (fun p Hp => Hl p (or_intror Hp)) H) as [I1 I2]. split; [assumption|]. intros p [<-|Hp]; [|auto].
          cbn [fst snd]. exists r. split; [assumption|lia].
    Qed.

    Lemma all_ok_fold : forall ffuel delta l s s' f' u', (forall p, In p l -> (fst p < n)%nat /\ snd p = nth (fst p) ts dt) ->
      (forall p, In p l -> exists r, rta_fixpoint ffuel (fst p) (snd p) ts s m delta = Some r /\ r <= t_deadline (snd p) /\ nth (fst p) s 0 = t_deadline (snd p) - r) ->
      fold_left (rta_step ffuel m delta ts) l (Some (s, true, false)) = Some (s', f', u') -> f' = true.
    Proof using.
      intros ffuel delta l. induction l as [|[k t] l IH]; intros s s' f' u' Hl Ha H.
      - cbn in H. injection H as <- <- <-. reflexivity.
      - cbn [fold_left rta_step] in H. destruct (Ha (k, t) (or_introl eq_refl)) as [r [R1 [R2 R3]]]. cbn [fst snd] in *.
        rewrite R1 in H. destruct (Z.leb_spec r (t_deadline t)); [|lia]. destruct (Z.eqb_spec (t_deadline t - r) (nth k s 0)); [|lia]. cbn [negb] in H.
        eapply IH; [intros p Hp; apply Hl; right; exact Hp|intros p Hp; apply Ha; right; exact Hp|exact H].
    Qed.

    Lemma unlimited_final : forall fuel ffuel delta round s b s', delta <= 1 -> rMon m ts s -> pder s ->
      rta_loop fuel ffuel m delta ts 0 round s true false = Some (b, s') ->
      exists s0 u', rMon m ts s0 /\ pder s0 /\ rta_round ffuel m delta ts s0 = Some (s', b, u') /\ (b = false -> u' = false).
    Proof using Hm Hw Hf Hc.
      induction fuel; intros ffuel delta round s b s' Hd Hs Hder H; cbn [rta_loop] in H; unfold continue in H; cbn in H; [discriminate|].
      destruct (rta_round ffuel m delta ts s) as [[[s1 f1] u1]|] eqn:E; [|discriminate].
      pose proof (ofold ffuel delta (indexed ts) s true false s1 f1 u1 Hd (indexed_ok ts) Hs Hder E) as [O1 [O2 _]].
      destruct f1.
      - assert (X : rta_loop fuel ffuel m delta ts 0 (round + 1) s1 u1 true = Some (true, s1)).
        { destruct fuel; cbn [rta_loop]; unfold continue; rewrite andb_false_r; reflexivity. }
        rewrite X in H. injection H as <- <-. exists s, u1. split; [assumption|]. split; [assumption|]. split; [assumption|discriminate].
      - destruct u1.
        + apply (IHfuel ffuel delta (round + 1) s1 b s' Hd O1 O2 H).
        + assert (X : rta_loop fuel ffuel m delta ts 0 (round + 1) s1 false false = Some (false, s1)).
          { destruct fuel; reflexivity. }
          rewrite X in H. injection H as <- <-. exists s, false. auto.
    Qed.

    Lemma rta_accepts : forall fuel ffuel delta b s', delta <= 1 -> rta_test fuel ffuel m ts 0 delta = Some (b, s') -> (b = true <-> paccepts).
    Proof using Hm Hw Hf Hc.
      intros fuel ffuel delta b s' Hd H. unfold rta_test in H.
      pose proof (unlimited_final fuel ffuel delta 0 _ b s' Hd (rMon_init m ts Hw Hf Hc) pder_0 H) as [s0 [u' [M0 [D0 [E Eb]]]]].
      pose proof (ofold ffuel delta (indexed ts) s0 true false s' b u' Hd (indexed_ok ts) M0 D0 E) as [O1 [O2 [O3 O4]]].
      split.
      - intros ->. exists s'. split; [assumption|]. intros k Hk. destruct (O4 eq_refl) as [_ X].
        apply (X (k, nth k ts dt)). apply indexed_all. assumption.
      - intros [s1 [P1 P2]]. destruct b; [reflexivity|]. specialize (Eb eq_refl). subst u'.
        destruct (stable_fold ffuel delta (indexed ts) s0 true s' false (indexed_ok ts) E) as [-> St].
        assert (Cl : forall k r, (k < n)%nat -> pgood k s0 r -> exists r', rta_fixpoint ffuel k (nth k ts dt) ts s0 m delta = Some r' /\
                     r' <= t_deadline (nth k ts dt) /\ nth k s0 0 = t_deadline (nth k ts dt) - r' /\ t_deadline (nth k ts dt) - r <= nth k s0 0).
        { intros k r Hk [G1 G2]. destruct (St (k, nth k ts dt) (indexed_all ts k Hk)) as [r' [R1 R2]]. cbn [fst snd] in *.
          pose proof (rta_fixpoint_least m ts Hm Hw Hf Hc ffuel delta k s0 r' r Hd Hk (proj1 M0) ltac:(lia) G2 R1).
          exists r'. split; [assumption|]. specialize (R2 ltac:(lia)). lia. }
        assert (Dle : forall s, pder s -> le_vec s s0).
        { assert (L0 : length s0 = n) by apply M0. induction 1 as [|s k r H1 IH Hk Hg].
          - split; [rewrite map_length; symmetry; exact L0|]. intros i Hi. rewrite map_length in Hi. rewrite nth_zero.
            destruct M0 as [[_ I0] _]. apply (I0 i Hi).
          - pose proof (pder_length s H1) as Ls. assert (Hks : (k < length s)%nat) by (rewrite Ls; assumption).
            split; [rewrite set_nth_length by assumption; destruct IH; assumption|].
            intros i Hi. rewrite set_nth_length in Hi by assumption. rewrite nth_set_nth by assumption. pose proof (proj2 IH i Hi) as Hi'.
            destruct (Nat.eqb_spec i k) as [->|]; [|assumption].
            destruct (Cl k r Hk (pgood_mono k s s0 r Hk Ls IH Hg)) as [_ [_ [_ [_ X]]]]. lia. }
        apply (all_ok_fold ffuel delta (indexed ts) s0 s0 false false (indexed_ok ts)); [|exact E].
        intros [k t] Hin. destruct (indexed_ok ts (k, t) Hin) as [Hk Ht]. cbn [fst snd] in *. subst t.
        destruct (P2 k Hk) as [r Hr]. pose proof (pder_length s1 P1) as L1.
        destruct (Cl k r Hk (pgood_mono k s1 s0 r Hk L1 (Dle s1 P1) Hr)) as [r' [X1 [X2 [X3 _]]]]. exists r'. auto.
    Qed.
  End Pos.
End Order.

Lemma Forall_perm : forall A (P : A -> Prop) l l', Permutation l l' -> Forall P l -> Forall P l'.
Proof. intros A P l l' H F. rewrite Forall_forall in *. intros x Hx. apply F. eapply Permutation_in; [symmetry; exact H|exact Hx]. Qed.

(** verdicts for two orders of the same tasks *)
Lemma rta_order : forall m ts ts' delta fuel ffuel fuel' ffuel' b s b' s', 1 <= m -> Forall wf_task ts -> Forall feasible ts -> Forall constrained ts ->
  delta <= 1 -> Permutation ts ts' ->
  rta_test fuel ffuel m ts 0 delta = Some (b, s) -> rta_test fuel' ffuel' m ts' 0 delta = Some (b', s') -> b = b'.
Proof.
  intros m ts ts' delta fuel ffuel fuel' ffuel' b s b' s' Hm Hw Hf Hc Hd Hp H H'.
  apply eq_true_iff_eq.
  rewrite (rta_accepts m ts Hm Hw Hf Hc fuel ffuel delta b s Hd H).
  rewrite (rta_accepts m ts' Hm (Forall_perm _ _ _ _ Hp Hw) (Forall_perm _ _ _ _ Hp Hf) (Forall_perm _ _ _ _ Hp Hc) fuel' ffuel' delta b' s' Hd H').
  rewrite <- !accepts_pos. split; apply accepts_perm; [assumption|symmetry; assumption].
Qed.
