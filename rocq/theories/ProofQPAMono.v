(** The QPA search with an additional demand that is compensated by the demand of
    the tasks whose deadlines are passed. *)
From Coq Require Import ZArith QArith List Bool Lia Lqa.
From Verif Require Import Base ModelNative ModelQPA ProofQPA.
Import ListNotations.
Open Scope Z_scope.

Section Extra.
Variables (ts : ntaskset) (B : Z -> Z).
Hypothesis G : Forall good ts.
Hypothesis U : ulong_ok ts.
Hypothesis B0 : forall x, 0 <= x -> 0 <= B x.
Hypothesis Blate : forall x, (forall t, In t ts -> n_deadline t <= x) -> B x = 0.
Hypothesis Bearly : forall x, x < min_relative_deadline ts -> B x = 0.
Hypothesis Bstep : forall x y, 0 <= x <= y -> h ts x + B x <= h ts y + B y.
Hypothesis Bconst : forall x y, 0 <= x <= y -> (forall t, In t ts -> n_deadline t <= y -> n_deadline t <= x) -> B y = B x.

Definition viol (x : Z) : Prop := 0 <= x /\ x < h ts x + B x.
Definition H (x : Z) : Z := h ts x + B x.

Lemma testpoint_H m : let p := get_largest_testpoint ts m in
  0 <= p /\ (p < m \/ p = 0) /\ (forall y, 0 <= y < m -> H y <= H p) /\ (forall t, In t ts -> n_deadline t < m -> n_deadline t <= p).
Proof.
  intros p. destruct (testpoint_spec ts m G) as [T1 [T2 [T3 T4]]]. fold p in T1, T2, T3, T4. split; [exact T1|split; [exact T2|split; [|exact T4]]].
  intros y Hy. unfold H. destruct (Z.le_gt_cases y p) as [L|L]; [apply Bstep; lia|]. rewrite (Bconst p y); [|lia|intros t Ht Hd; apply T4; [exact Ht|lia]]. specialize (T3 y). lia.
Qed.

Lemma H_early x : x < min_relative_deadline ts -> H x = 0.
Proof. intros L. unfold H. rewrite below_min, Bearly; auto. Qed.

Variable demand : Z -> Z.
Hypothesis demandH : forall x, 0 <= x -> demand x = H x.

Lemma loop_correct : forall fuel next i d, 0 <= next -> ((exists x, viol x) -> exists x, x <= next /\ viol x) ->
  qpa_loop fuel demand ts (min_relative_deadline ts) next = Some (i, d) ->
  (d <= min_relative_deadline ts /\ forall x, ~ viol x) \/ (min_relative_deadline ts < d /\ exists x, viol x).
Proof.
  induction fuel as [|f IH]; intros next i d Hn Hc E; cbn in E; [discriminate|].
  rewrite demandH in E by exact Hn. set (dm := H next) in *. assert (Hd0 : 0 <= dm). { unfold dm, H. pose proof (h_nonneg ts next G). specialize (B0 next Hn). lia. }
  destruct (Z.leb_spec dm next) as [L|L]; cbn [andb] in E.
  - destruct (Z.ltb_spec (min_relative_deadline ts) dm) as [G2|G2].
    + destruct (Z.ltb_spec dm next) as [G3|G3].
      * apply IH in E; [exact E|exact Hd0|]. intros Hv. destruct (Hc Hv) as [x [Hx [V1 V2]]]. exists x. split; [|split; assumption].
        destruct (Z.le_gt_cases x dm) as [Y|Y]; [exact Y|]. pose proof (Bstep x next ltac:(lia)) as S. unfold dm, H in *. lia.
      * destruct (testpoint_H next) as [T1 [T2 [T3 T4]]]. set (p := get_largest_testpoint ts next) in *. apply IH in E; [exact E|exact T1|].
        intros Hv. destruct (Hc Hv) as [x [Hx [V1 V2]]].
        assert (x <> next) by (intro; subst x; unfold dm, H in *; lia). destruct (Z.le_gt_cases x p); [exists x; split; [assumption|split; assumption]|].
        exists p. split; [lia|]. split; [exact T1|]. specialize (T3 x ltac:(lia)). unfold H in T3. lia.
    + inv E. left. split; [exact G2|]. intros x Hv. destruct (Hc (ex_intro _ x Hv)) as [y [Hy [V1 V2]]].
      destruct (Z.le_gt_cases (min_relative_deadline ts) y) as [G4|G4].
      * pose proof (Bstep y i ltac:(lia)) as S. unfold dm, H in *. lia.
      * pose proof (H_early y G4) as X. unfold H in X. lia.
  - inv E. right. split; [|exists i; split; [exact Hn|unfold dm, H in L; lia]].
    destruct (Z.le_gt_cases dm (min_relative_deadline ts)) as [G2|G2]; [|exact G2]. pose proof (H_early i ltac:(lia)) as X. fold dm in X. lia.
Qed.

Lemma loop_terminates : forall fuel next, 0 <= next -> next < Z.of_nat fuel ->
  qpa_loop fuel demand ts (min_relative_deadline ts) next <> None.
Proof.
  induction fuel as [|f IH]; intros next Hn Hf; [simpl in Hf; lia|]. cbn. rewrite Nat2Z.inj_succ in Hf. rewrite demandH by exact Hn.
  assert (Hd0 : 0 <= H next). { unfold H. pose proof (h_nonneg ts next G). specialize (B0 next Hn). lia. }
  destruct (Z.leb_spec (H next) next) as [L|L]; cbn [andb]; [|discriminate].
  destruct (Z.ltb_spec (min_relative_deadline ts) (H next)) as [G2|G2]; [|discriminate].
  destruct (Z.ltb_spec (H next) next) as [G3|G3]; [apply IH; lia|].
  destruct (testpoint_H next) as [T1 [T2 [T3 T4]]]. set (p := get_largest_testpoint ts next) in *. apply IH; [exact T1|].
  destruct T2 as [T2|T2]; [lia|].
  assert (Hne : ts <> []).
  { intro E. assert (X : H next = 0) by (unfold H; rewrite Blate by (rewrite E; intros t []); rewrite E; reflexivity).
    rewrite X, E in G2. unfold min_relative_deadline, ULONG_MAX in G2. cbn in G2. lia. }
  destruct (min_in ts U Hne) as [u [Hu1 Hu2]].
  specialize (T4 u Hu1 ltac:(lia)). rewrite Forall_forall in G. destruct (G u Hu1). lia.
Qed.

(** the search from the largest test point below [max(bound, Dmax)] *)
Lemma extra_search (D : Z) : (forall t, In t ts -> n_deadline t <= D) -> 0 <= D -> (ns_util ts <= 1)%Q ->
  forall fuel, prod ts + D < Z.of_nat fuel ->
  exists M i d, get_max_interval fuel ts (ns_util ts) = Some M /\
    qpa_loop fuel demand ts (min_relative_deadline ts) (get_largest_testpoint ts (Z.max M D)) = Some (i, d) /\
    ((d <= min_relative_deadline ts /\ forall x, ~ viol x) \/ (min_relative_deadline ts < d /\ exists x, viol x)).
Proof.
  intros HD D0 Hu fuel Hf. pose proof (prod_pos ts G). destruct (max_interval_spec ts fuel G Hu ltac:(lia)) as [M [EM [HM Hv]]].
  destruct (testpoint_H (Z.max M D)) as [T1 [T2 [T3 T4]]]. set (p := get_largest_testpoint ts (Z.max M D)) in *.
  pose proof (loop_terminates fuel p T1 ltac:(lia)) as Ht.
  destruct (qpa_loop fuel demand ts (min_relative_deadline ts) p) as [[i d]|] eqn:E; [|congruence].
  exists M, i, d. split; [exact EM|split; [exact E|]]. apply loop_correct in E; [exact E|exact T1|].
  intros [x [V1 V2]].
  assert (X : exists y, y < Z.max M D /\ viol y).
  { destruct (Z.lt_ge_cases x D) as [L|L]; [exists x; split; [lia|split; assumption]|].
    rewrite Blate in V2 by (intros t Ht'; specialize (HD t Ht'); lia). assert (V : violation ts x) by (split; [exact V1|lia]). destruct (Hv (ex_intro _ x V)) as [y [Hy [Y1 Y2]]].
    exists y. split; [lia|]. split; [exact Y1|]. specialize (B0 y Y1). lia. }
  destruct X as [y [Hy [Y1 Y2]]]. destruct (Z.le_gt_cases y p); [exists y; split; [assumption|split; assumption]|].
  exists p. split; [lia|split; [exact T1|]]. specialize (T3 y ltac:(lia)). unfold H in T3. lia.
Qed.

(** over-utilization *)
Lemma extra_over : (1 < ns_util ts)%Q -> exists x, viol x.
Proof.
  intros X. destruct (over_utilized_violation ts G) as [x [V1 V2]].
  - destruct (Z.lt_ge_cases (prod ts) (scaled (prod ts) ts)) as [L|L]; [exact L|]. pose proof (proj2 (util_le_1 ts G) ltac:(lia)). lra.
  - exists x. split; [exact V1|]. specialize (B0 x V1). lia.
Qed.
End Extra.
