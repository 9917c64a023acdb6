(** Consequences of the shape of generated task sets, the distributions, and
    the emstada wrapper. *)
From Coq Require Import ZArith QArith Qround List Bool Lia Lqa Permutation String.
From Verif Require Import Base ModelTasks ModelOverheads ModelGen SpecGen ProofGen ProofGenSum.
Import ListNotations.
Open Scope Q_scope.

Section Caps.
Variables (fuel : nat) (max_tasks : option Z) (max_util : option Q) (squeeze : bool) (conv : Q -> Z) (draws : nat -> draw) (ts : list task).
Hypothesis RUN : make_task_set fuel max_tasks max_util squeeze conv draws = Some ts.

Notation upto := (upto conv draws 0).
Notation tk := (tk conv draws).

Lemma upto_length : forall n, List.length (upto n) = n.
Proof. intros n. unfold ProofGen.upto. rewrite map_length, seq_length. reflexivity. Qed.

Lemma upto_snoc : forall n, upto (S n) = upto n ++ [tk n].
Proof. intros n. unfold ProofGen.upto. rewrite seq_S, map_app. reflexivity. Qed.

Lemma shape : exists n tail, ts = upto n ++ tail /\
    (forall j, (j < n)%nat -> may max_tasks max_util j (total_util (upto j)) /\ forall u, max_util = Some u -> total_util (upto (S j)) <= u) /\
    ((tail = [] /\ ~ may max_tasks max_util n (total_util (upto n))) \/
     (exists u, max_util = Some u /\ may max_tasks max_util n (total_util (upto n)) /\ u < total_util (upto (S n)) /\
       ((squeeze = false /\ tail = []) \/
        (squeeze = true /\ exists c, tail = [Task c (t_period (tk n)) (t_deadline (tk n))] /\ (0 <= c < t_cost (tk n))%Z /\
           inject_Z c <= inject_Z (t_period (tk n)) * (u - total_util (upto n)) /\
           inject_Z (t_period (tk n)) * (u - total_util (upto n)) < inject_Z c + 1)))).
Proof.
  destruct (tasks_shape _ _ _ _ _ _ _ _ _ (Qle_refl 0) RUN) as [n [tail [A [B C]]]].
  assert (EXT : forall c x, may max_tasks max_util c (0 + x) <-> may max_tasks max_util c x).
  { intros c x. split; intros M; (eapply may_ext; [|exact M]); lra. }
  exists n, tail. split; [assumption|]. split.
  - intros j L. destruct (C j L) as [M D]. cbn [Nat.add] in M. split; [apply EXT; assumption|]. intros u U. apply D in U. lra.
  - unfold ends in B. cbn [Nat.add] in B. destruct B as [[T M]|[u [U [M [L T]]]]].
    + left. split; [assumption|]. intros M'. apply M. apply EXT. assumption.
    + right. exists u. split; [assumption|]. rewrite EXT in M. split; [assumption|]. split; [lra|].
      destruct T as [T|[SQ [c [T [r [E R]]]]]]; [left; assumption|]. right. split; [assumption|]. exists c. split; [assumption|].
      destruct (tk_pos conv draws n) as [P1 [P2 _]]. pose proof (inject_pos _ P2) as PP. destruct M as [_ M]. specialize (M _ U).
      set (p := inject_Z (t_period (tk n))) in *. set (x := total_util (upto n)) in *.
      assert (E' : r == p * (u - x)) by (rewrite E; ring).
      assert (R0 : 0 <= r) by (rewrite E'; apply Qmult_le_0_compat; lra).
      rewrite (qtrunc_nonneg _ R0) in R. pose proof (Qfloor_le r) as F1. pose proof (Qlt_floor r) as F2. rewrite <- R in F1, F2.
      rewrite inject_Z_plus in F2. change (inject_Z 1) with 1 in F2.
      assert (LT : r < inject_Z (t_cost (tk n))).
      { rewrite upto_snoc, total_util_app in L. cbn [total_util] in L. fold x in L. fold p in L.
        setoid_replace (inject_Z (t_cost (tk n))) with (p * (inject_Z (t_cost (tk n)) / p)) by (field; lra).
        rewrite E', !(Qmult_comm p). apply Qmult_lt_compat_r; lra. }
      split; [split|].
      * rewrite R. apply Qfloor_resp_le in R0. exact R0.
      * rewrite Zlt_Qlt. lra.
      * split; lra.
Qed.

Lemma prefix_cap : forall u n, max_util = Some u -> 0 <= u ->
  (forall j, (j < n)%nat -> may max_tasks max_util j (total_util (upto j)) /\ forall u, max_util = Some u -> total_util (upto (S j)) <= u) ->
  total_util (upto n) <= u.
Proof. intros u n U P H. destruct n as [|n]; [cbn; lra|]. destruct (H n ltac:(lia)) as [_ C]. apply C. assumption. Qed.

Lemma util_cap : forall u, max_util = Some u -> 0 <= u -> total_util ts <= u.
Proof.
  intros u U P. destruct shape as [n [tail [A [B C]]]]. rewrite A, total_util_app. pose proof (prefix_cap u n U P B) as Q.
  destruct C as [[T _]|[u' [U' [M [L [[_ T]|[_ [c [T [C1 [C2 C3]]]]]]]]]]]; subst tail; cbn [total_util]; [lra|lra|].
  assert (u' = u) by congruence. subst u'. cbn [t_cost t_period].
  destruct (tk_pos conv draws n) as [_ [P2 _]]. pose proof (inject_pos _ P2) as PP. set (p := inject_Z (t_period (tk n))) in *.
  assert (inject_Z c / p <= u - total_util (upto n)) by (apply Qle_shift_div_r; [assumption|]; lra). lra.
Qed.

Lemma count_cap : forall m, max_tasks = Some m -> (Z.of_nat (List.length ts) <= Z.max 0 m)%Z.
Proof.
  intros m E. destruct shape as [n [tail [A [B C]]]]. rewrite A, app_length, upto_length.
  assert (N : (Z.of_nat n <= Z.max 0 m)%Z).
  { destruct n as [|n]; [lia|]. destruct (B n ltac:(lia)) as [[M _] _]. specialize (M _ E). lia. }
  destruct C as [[T _]|[u' [U' [[M _] [L [[_ T]|[_ [c [T _]]]]]]]]]; subst tail; cbn [List.length]; [lia|lia|]. specialize (M _ E). lia.
Qed.

Lemma nth_upto : forall n k, (k < n)%nat -> nth_error (upto n) k = Some (tk k).
Proof. intros n k L. unfold ProofGen.upto. apply map_nth_error. rewrite (nth_error_nth' _ 0%nat) by (rewrite seq_length; assumption). rewrite (seq_nth _ _ L). reflexivity. Qed.

Lemma drawn : forall k t, nth_error ts k = Some t -> t = tk k \/
  (squeeze = true /\ S k = List.length ts /\ t_period t = t_period (tk k) /\ t_deadline t = t_deadline (tk k) /\ (0 <= t_cost t < t_cost (tk k))%Z).
Proof.
  intros k t H. destruct shape as [n [tail [A [B C]]]]. destruct (lt_dec k n) as [L|L].
  - left. rewrite A, nth_error_app1 in H by (rewrite upto_length; assumption). rewrite (nth_upto n k L) in H. congruence.
  - rewrite A, nth_error_app2 in H by (rewrite upto_length; lia). rewrite upto_length in H.
    destruct C as [[T _]|[u' [U' [M [L' [[_ T]|[SQ [c [T [C1 [C2 C3]]]]]]]]]]]; subst tail; try (destruct (k - n)%nat; discriminate).
    destruct (k - n)%nat as [|d] eqn:D; [|destruct d; discriminate]. assert (k = n) by lia. subst k. injection H as <-. right. split; [assumption|].
    split; [rewrite A, app_length, upto_length; cbn [List.length]; lia|]. cbn [t_period t_deadline t_cost]. split; [reflexivity|]. split; [reflexivity|]. assumption.
Qed.

Lemma reaches :
  (exists m, max_tasks = Some m /\ (m <= Z.of_nat (List.length ts))%Z) \/
  (exists u, max_util = Some u /\
    (u <= total_util ts \/
     (squeeze = false /\ u < total_util (ts ++ [tk (List.length ts)])) \/
     (squeeze = true /\ exists t, last (map Some ts) None = Some t /\ u < total_util ts + 1 / inject_Z (t_period t)))).
Proof.
  destruct shape as [n [tail [A [B C]]]].
  destruct C as [[T M]|[u [U [M [L [[SQ T]|[SQ [c [T [C1 [C2 C3]]]]]]]]]]]; subst tail.
  - rewrite app_nil_r in A.
    assert (D : (exists m, max_tasks = Some m /\ (m <= Z.of_nat n)%Z) \/ exists u, max_util = Some u /\ u <= total_util (upto n)).
    { clear A B. destruct (proceed max_tasks max_util n (total_util (upto n))) eqn:E; [exfalso; apply M, proceed_may; assumption|].
      unfold proceed in E. apply andb_false_iff in E. destruct E as [E|E].
      - left. destruct max_tasks as [m|]; [|discriminate]. exists m. split; [reflexivity|]. apply Z.ltb_ge in E. assumption.
      - right. destruct max_util as [u|]; [|discriminate]. exists u. split; [reflexivity|]. apply negb_false_iff, Qle_bool_iff in E. assumption. }
    rewrite A, upto_length. destruct D as [D|[u [U D]]]; [left; assumption|]. right. exists u. split; [assumption|]. left. assumption.
  - rewrite app_nil_r in A. rewrite A, upto_length. right. exists u. split; [assumption|]. right. left. split; [assumption|]. rewrite <- upto_snoc. assumption.
  - right. exists u. split; [assumption|]. right. right. split; [assumption|]. eexists. split.
    + rewrite A, map_app. cbn [map]. rewrite last_last. reflexivity.
    + cbn [t_period]. rewrite A, total_util_app. cbn [total_util t_cost t_period].
      destruct (tk_pos conv draws n) as [_ [P2 _]]. pose proof (inject_pos _ P2) as PP. set (p := inject_Z (t_period (tk n))) in *.
      assert (u - total_util (upto n) < (inject_Z c + 1) / p) by (apply Qlt_shift_div_l; [assumption|]; lra).
      assert ((inject_Z c + 1) / p == inject_Z c / p + 1 / p) by (field; lra). lra.
Qed.

End Caps.

(** ** Feasible parameters *)
Lemma scaled_le : forall conv a b, monotone conv -> a <= b -> (scaled conv a <= scaled conv b)%Z.
Proof. intros conv a b M L. apply M in L. unfold scaled. lia. Qed.

Lemma task_of_feasible : forall conv d, monotone conv -> 0 <= d_period d -> d_util d <= 1 -> (t_cost (task_of conv d) <= t_period (task_of conv d))%Z.
Proof.
  intros conv d M P U. rewrite task_of_scaled. cbn [t_cost t_period]. apply scaled_le; [assumption|].
  setoid_replace (d_period d) with (1 * d_period d) at 2 by ring. rewrite (Qmult_comm (d_period d)). apply Qmult_le_compat_r; assumption.
Qed.

(** ** Termination *)
Lemma terminates_count : forall m mu sq conv draws fuel count usum, (m - Z.of_nat count < Z.of_nat fuel)%Z -> (0 < fuel)%nat ->
  exists ts, tasks fuel (Some m) mu sq conv draws count usum = Some ts.
Proof.
  intros m mu sq conv draws. induction fuel as [|fuel IH]; intros count usum L P; [lia|]. cbn [tasks].
  destruct (proceed (Some m) mu count usum) eqn:E; [|eexists; reflexivity].
  assert (C : (Z.of_nat count < m)%Z). { unfold proceed in E. apply andb_true_iff in E. destruct E as [E _]. apply Z.ltb_lt in E. assumption. }
  match goal with |- context [tasks fuel (Some m) mu sq conv draws (S count) ?x] => destruct (IH (S count) x ltac:(lia) ltac:(lia)) as [ts T] end.
  rewrite T. cbn [option_map]. destruct mu as [u|]; [|eexists; reflexivity].
  match goal with |- context [if ?b then _ else _] => destruct b end; [|eexists; reflexivity]. destruct sq; eexists; reflexivity.
Qed.

Lemma terminates_util : forall mt u sq conv draws P, (1 <= P)%Z -> (forall k, (conv (d_period (draws k)) <= P)%Z) ->
  forall fuel count usum, (u - usum) * inject_Z P + 1 < inject_Z (Z.of_nat fuel) -> (0 < fuel)%nat ->
  exists ts, tasks fuel mt (Some u) sq conv draws count usum = Some ts.
Proof.
  intros mt u sq conv draws P P1 PB. pose proof (inject_pos _ P1) as PP. induction fuel as [|fuel IH]; intros count usum L F; [lia|]. cbn [tasks].
  destruct (proceed mt (Some u) count usum) eqn:E; [|eexists; reflexivity].
  assert (C : usum < u). { unfold proceed in E. apply andb_true_iff in E. destruct E as [_ E]. apply negb_true_iff, Qle_bool_false in E. assumption. }
  set (c := scaled conv (d_period (draws count) * d_util (draws count))). set (p := scaled conv (d_period (draws count))).
  assert (C1 : (1 <= c)%Z) by apply scaled_pos. assert (Q1 : (1 <= p)%Z) by apply scaled_pos.
  assert (Q2 : (p <= P)%Z) by (unfold p, scaled; specialize (PB count); lia).
  assert (V : 1 <= zdivq c p * inject_Z P).
  { unfold zdivq. rewrite Zle_Qle in C1, Q2. change (inject_Z 1) with 1 in C1. pose proof (inject_pos _ Q1) as PQ.
    setoid_replace (inject_Z c / inject_Z p * inject_Z P) with (inject_Z c * inject_Z P / inject_Z p) by (field; lra).
    apply Qle_shift_div_l; [assumption|]. assert (1 * inject_Z P <= inject_Z c * inject_Z P) by (apply Qmult_le_compat_r; lra). lra. }
  assert (N : (u - (usum + zdivq c p)) * inject_Z P + 1 < inject_Z (Z.of_nat fuel)).
  { rewrite Nat2Z.inj_succ in L. unfold Z.succ in L. rewrite inject_Z_plus in L. change (inject_Z 1) with 1 in L.
    setoid_replace ((u - (usum + zdivq c p)) * inject_Z P) with ((u - usum) * inject_Z P - zdivq c p * inject_Z P) by ring. lra. }
  assert (F' : (0 < fuel)%nat).
  { assert (0 < (u - usum) * inject_Z P) by (apply Qmult_lt_0_compat; lra). destruct fuel; [|lia]. change (inject_Z (Z.of_nat 1)) with 1 in L. lra. }
  destruct (IH (S count) _ N F') as [ts T]. rewrite T. cbn [option_map].
  match goal with |- context [if ?b then _ else _] => destruct b end; [|eexists; reflexivity]. destruct sq; eexists; reflexivity.
Qed.

Lemma unbounded_diverges : forall sq conv draws fuel count usum, tasks fuel None None sq conv draws count usum = None.
Proof. intros sq conv draws. induction fuel as [|fuel IH]; intros count usum; [reflexivity|]. cbn [tasks]. rewrite IH. reflexivity. Qed.

(** ** Distributions *)
Lemma randint_range : forall a b r, (a <= b)%Z -> unit_draw r -> (a <= random_randint a b r <= b)%Z.
Proof.
  intros a b r L [R0 R1]. unfold random_randint. assert (P : 0 < inject_Z (b - a + 1)) by (apply inject_pos; lia).
  assert (A : 0 <= r * inject_Z (b - a + 1)) by (apply Qmult_le_0_compat; lra).
  assert (B : r * inject_Z (b - a + 1) < inject_Z (b - a + 1)).
  { setoid_replace (inject_Z (b - a + 1)) with (1 * inject_Z (b - a + 1)) at 2 by ring. apply Qmult_lt_compat_r; assumption. }
  pose proof (Qfloor_le (r * inject_Z (b - a + 1))) as F. apply Qfloor_resp_le in A. change (Qfloor 0) with 0%Z in A.
  assert (inject_Z (Qfloor (r * inject_Z (b - a + 1))) < inject_Z (b - a + 1)) as G by lra. rewrite <- Zlt_Qlt in G. lia.
Qed.

Lemma uniform_range : forall a b r, a <= b -> unit_draw r -> a <= random_uniform a b r /\ random_uniform a b r <= b.
Proof.
  intros a b r L [R0 R1]. unfold random_uniform.
  assert (0 <= (b - a) * r) by (apply Qmult_le_0_compat; lra).
  assert ((b - a) * r <= (b - a) * 1) by (rewrite !(Qmult_comm (b - a)); apply Qmult_le_compat_r; lra). lra.
Qed.

Lemma drawn_one : forall (d : dist) v, drawn_from d v -> (forall x, d [] = Some x -> False) -> exists r rs, unit_draw r /\ Forall unit_draw rs /\ d (r :: rs) = Some v.
Proof.
  intros d v [rs [U E]] N. destruct rs as [|r rs]; [exfalso; eapply N; eassumption|]. inv U. exists r, rs. tauto.
Qed.

Lemma uniform_int_drawn : forall a b v, (a <= b)%Z -> drawn_from (uniform_int a b) v -> exists z, v = inject_Z z /\ (a <= z <= b)%Z.
Proof.
  intros a b v L D. apply drawn_one in D; [|discriminate]. destruct D as [r [rs [U [_ E]]]]. cbn in E. inv E. eexists. split; [reflexivity|]. apply randint_range; assumption.
Qed.

Lemma uniform_drawn : forall a b v, a <= b -> drawn_from (uniform a b) v -> a <= v /\ v <= b.
Proof. intros a b v L D. apply drawn_one in D; [|discriminate]. destruct D as [r [rs [U [_ E]]]]. cbn in E. inv E. apply uniform_range; assumption. Qed.

Lemma log_uniform_int_drawn : forall explog a b v, (a <= b)%Z -> drawn_from (log_uniform_int explog a b) v -> exists z, v = inject_Z z /\ (a <= z <= b)%Z.
Proof. intros el a b v L D. apply drawn_one in D; [|discriminate]. destruct D as [r [rs [U [_ E]]]]. cbn in E. inv E. eexists. split; [reflexivity|]. lia. Qed.

Lemma uniform_choice_drawn : forall l v, drawn_from (uniform_choice l) v -> In v l.
Proof. intros l v D. apply drawn_one in D; [|discriminate]. destruct D as [r [rs [U [_ E]]]]. cbn in E. eapply nth_error_In. eassumption. Qed.

Lemma uniform_choice_total : forall l r rs, l <> [] -> unit_draw r -> exists v, uniform_choice l (r :: rs) = Some v.
Proof.
  intros l r rs N U. unfold uniform_choice. destruct l as [|a l]; [congruence|].
  pose proof (randint_range 0 (Z.of_nat (List.length (a :: l)) - 1) r) as H. cbn [List.length] in *.
  destruct (nth_error (a :: l) _) as [v|] eqn:E; [exists v; reflexivity|]. apply nth_error_None in E. cbn [List.length] in E. specialize (H ltac:(lia) U). lia.
Qed.

Lemma truncate_drawn : forall lo hi d v, lo <= hi -> drawn_from (truncate lo hi d) v -> lo <= v /\ v <= hi.
Proof.
  intros lo hi d v L [rs [_ E]]. unfold truncate in E. destruct (d rs) as [x|]; [|discriminate]. inv E. unfold pymin, pymax.
  destruct (Qle_bool x lo) eqn:A; [apply Qle_bool_iff in A|apply Qle_bool_false in A]; [destruct (Qle_bool hi lo) eqn:B|destruct (Qle_bool hi x) eqn:B];
    try (apply Qle_bool_iff in B); try (apply Qle_bool_false in B); lra.
Qed.

Lemma redraw_range : forall lo hi d rs v, redraw lo hi d rs = Some v -> lo <= v /\ v <= hi.
Proof.
  intros lo hi d. unfold redraw. induction rs as [|r rs IH]; intros v E; cbn [redraw_loop] in E; [discriminate|].
  destruct (d [r]) as [x|]; [|discriminate]. destruct (Qle_bool lo x && Qle_bool x hi) eqn:B; [|apply IH; assumption]. inv E.
  apply andb_true_iff in B. destruct B as [B1 B2]. apply Qle_bool_iff in B1, B2. split; assumption.
Qed.

Lemma redraw_first : forall lo hi d rs v, redraw lo hi d rs = Some v -> exists pre r post, rs = pre ++ r :: post /\ d [r] = Some v /\
  forall q x, In q pre -> d [q] = Some x -> ~ (lo <= x /\ x <= hi).
Proof.
  intros lo hi d. unfold redraw. induction rs as [|r rs IH]; intros v E; cbn [redraw_loop] in E; [discriminate|].
  destruct (d [r]) as [x|] eqn:D; [|discriminate]. destruct (Qle_bool lo x && Qle_bool x hi) eqn:B.
  - inv E. exists [], r, rs. split; [reflexivity|]. split; [assumption|]. intros q y [].
  - destruct (IH _ E) as [pre [r' [post [A1 [A2 A3]]]]]. exists (r :: pre), r', post. split; [rewrite A1; reflexivity|]. split; [assumption|].
    intros q y [<-|I] Y [Y1 Y2]; [|eapply A3; [eassumption|eassumption|split; assumption]].
    assert (y = x) by congruence. subst y. apply Qle_bool_iff in Y1, Y2. rewrite Y1, Y2 in B. discriminate.
Qed.

Lemma pick_mode_spec : forall wds wsum x d, pick_mode wds wsum x = Some d -> exists pre w post, wds = pre ++ (d, w) :: post /\
  x <= wsum + total (map snd pre) + w /\ (pre = [] \/ wsum + total (map snd pre) < x).
Proof.
  induction wds as [|[d0 w0] wds IH]; intros wsum x d H; cbn [pick_mode] in H; [discriminate|].
  destruct (Qle_bool x (wsum + w0)) eqn:E.
  - inv H. apply Qle_bool_iff in E. exists [], w0, wds. split; [reflexivity|]. split; [cbn; lra|]. left. reflexivity.
  - apply Qle_bool_false in E. destruct (IH _ _ _ H) as [pre [w [post [A [B C]]]]]. exists ((d0, w0) :: pre), w, post. split; [rewrite A; reflexivity|].
    cbn [map snd total]. split; [lra|]. right. destruct C as [->|C]; [cbn [map total]; lra|lra].
Qed.

Lemma qsum_total : forall l, qsum l == total l.
Proof. intros l. unfold qsum. induction l as [|a l IH]; cbn [fold_right total]; [lra|]. rewrite IH. lra. Qed.

Lemma pick_mode_total : forall wds wsum x, wds <> [] -> x <= wsum + total (map snd wds) -> exists d, pick_mode wds wsum x = Some d.
Proof.
  induction wds as [|[d0 w0] wds IH]; intros wsum x N L; [congruence|]. cbn [pick_mode map snd total] in *.
  destruct (Qle_bool x (wsum + w0)) eqn:E; [eexists; reflexivity|]. apply Qle_bool_false in E.
  destruct wds as [|p wds]; [cbn [map total] in L; lra|]. apply IH; [discriminate|]. lra.
Qed.

Lemma multimodal_drawn : forall wds v, drawn_from (multimodal wds) v -> exists d w, In (d, w) wds /\ drawn_from d v.
Proof.
  intros wds v D. apply drawn_one in D; [|discriminate]. destruct D as [r [rs [U [US E]]]]. cbn [multimodal] in E.
  destruct (pick_mode wds 0 (random_uniform 0 (qsum (map snd wds)) r)) as [d|] eqn:P; [|discriminate].
  apply pick_mode_spec in P. destruct P as [pre [w [post [-> _]]]]. exists d, w. split; [apply in_or_app; right; left; reflexivity|]. exists rs. split; assumption.
Qed.

(** ** Slack *)
Lemma slack_range : forall lo hi r c p, 0 <= lo -> lo <= hi -> unit_draw r -> c <= p ->
  c + lo * (p - c) <= uniform_slack lo hi r c p /\ uniform_slack lo hi r c p <= c + hi * (p - c).
Proof.
  intros lo hi r c p L0 L U CP. unfold uniform_slack.
  assert (A : (p - c) * lo <= (p - c) * hi) by (rewrite !(Qmult_comm (p - c)); apply Qmult_le_compat_r; lra).
  pose proof (uniform_range _ _ r A U) as [B C]. lra.
Qed.

(** ** emstada wrapper *)
Lemma nth_error_combine : forall {A B} (a : list A) (b : list B) i x y, nth_error a i = Some x -> nth_error b i = Some y -> nth_error (combine a b) i = Some (x, y).
Proof.
  induction a as [|a0 a IH]; intros b i x y Ha Hb; [destruct i; discriminate|]. destruct b as [|b0 b]; [destruct i; discriminate|].
  destruct i as [|i]; cbn in *; [congruence|]. apply IH; assumption.
Qed.

Definition fits_quantized (t : otask) : Prop :=
  ~ qmin (inject_Z (Qfloor (o_period t))) (inject_Z (Qfloor (o_deadline t))) == 0 /\
  inject_Z (Qceiling (o_cost t)) / qmin (inject_Z (Qfloor (o_period t))) (inject_Z (Qfloor (o_deadline t))) <= 1.

Definition quantized (t : otask) : otask :=
  OTask (inject_Z (Qceiling (o_cost t))) (inject_Z (Qfloor (o_period t))) (inject_Z (Qfloor (o_deadline t))) (o_wss t) (o_early t) (o_jitter t).

Lemma quantize_inplace_all : forall ts, Forall fits_quantized ts -> quantize_inplace ts = map quantized ts.
Proof.
  induction 1 as [|t ts [A B] _ IH]; [reflexivity|]. cbn [quantize_inplace map].
  destruct (Qeq_bool _ 0) eqn:E; [apply Qeq_bool_iff in E; contradiction|]. apply Qle_bool_iff in B. rewrite B. cbn [negb]. rewrite IH. reflexivity.
Qed.

Lemma qmin_same : forall a, qmin a a = a.
Proof. intros a. unfold qmin. destruct (Qle_bool a a); reflexivity. Qed.

(** the integer period that a raw draw is rounded to *)
Definition int_period (m g : Z) (r : Q) : Z := Z.max (Qfloor (r / inject_Z g) * g) (Z.max m g).

Lemma pymax_comp : forall a a' b b', a == a' -> b == b' -> pymax a b == pymax a' b'.
Proof.
  intros a a' b b' A B. unfold pymax. destruct (Qle_bool b a) eqn:E; [apply Qle_bool_iff in E|apply Qle_bool_false in E];
    (destruct (Qle_bool b' a') eqn:F; [apply Qle_bool_iff in F|apply Qle_bool_false in F]); lra.
Qed.

Lemma pymax_int : forall a b, pymax (inject_Z a) (inject_Z b) == inject_Z (Z.max a b).
Proof.
  intros a b. unfold pymax. destruct (Qle_bool (inject_Z b) (inject_Z a)) eqn:E.
  - apply Qle_bool_iff in E. rewrite <- Zle_Qle in E. rewrite Z.max_l by assumption. reflexivity.
  - apply Qle_bool_false in E. rewrite <- Zlt_Qlt in E. rewrite Z.max_r by lia. reflexivity.
Qed.

Lemma clamp_int : forall m g r, clamp_period (inject_Z m) (inject_Z g) (round_period (inject_Z g) r) == inject_Z (int_period m g r).
Proof.
  intros m g r. unfold clamp_period, round_period, int_period. rewrite <- pymax_int. apply pymax_comp; [|apply pymax_int].
  rewrite inject_Z_mult. reflexivity.
Qed.

Lemma int_period_range : forall m mx g r, (1 <= m)%Z -> (1 <= g)%Z -> (m <= mx)%Z -> (g <= mx)%Z -> (g | mx)%Z -> r < inject_Z (mx + g) ->
  (m <= int_period m g r <= mx)%Z.
Proof.
  intros m mx g r M G MX GX [q Q] R. unfold int_period. pose proof (inject_pos _ G) as GP.
  assert (F : (Qfloor (r / inject_Z g) < q + 1)%Z).
  { rewrite Zlt_Qlt. pose proof (Qfloor_le (r / inject_Z g)). assert (r / inject_Z g < inject_Z (q + 1)); [|lra].
    apply Qlt_shift_div_r; [assumption|]. rewrite <- inject_Z_mult. replace ((q + 1) * g)%Z with (mx + g)%Z by lia. assumption. }
  nia.
Qed.

Lemma int_period_multiple : forall m g r, (g | m)%Z -> (g | int_period m g r)%Z.
Proof.
  intros m g r D. unfold int_period.
  assert (X : forall a b, (g | a)%Z -> (g | b)%Z -> (g | Z.max a b)%Z) by (intros a b A B; destruct (Z.max_spec a b) as [[_ ->]|[_ ->]]; assumption).
  apply X; [apply Z.divide_factor_r|]. apply X; [assumption|apply Z.divide_refl].
Qed.

(** one task of gen_taskset: with scale factor [c], utilization [x], raw period [r] *)
Lemma gen_taskset_nth : forall m gr c x raw i xi ri, let g := match gr with None => m | Some g => g end in
  (1 <= m)%Z -> (1 <= g)%Z -> (1 <= c)%Z -> Forall (fun y => 0 <= y /\ y <= 1) x -> nth_error x i = Some xi -> nth_error raw i = Some ri ->
  exists cost, nth_error (gen_taskset (inject_Z m) (option_map inject_Z gr) (fun q => q * inject_Z c) true x raw) i =
     Some (plain_otask (inject_Z cost) (inject_Z (int_period m g ri * c))) /\
   (0 <= cost <= int_period m g ri * c)%Z /\
   xi * inject_Z (int_period m g ri * c) <= inject_Z cost /\ inject_Z cost < xi * inject_Z (int_period m g ri * c) + 1.
Proof.
  intros m gr c x raw i xi ri g M G C X NX NR. unfold gen_taskset.
  replace (match option_map inject_Z gr with Some g0 => g0 | None => inject_Z m end) with (inject_Z g) by (destruct gr; reflexivity).
  pose proof (inject_pos _ C) as CP.
  assert (PER : forall r, clamp_period (inject_Z m) (inject_Z g) (round_period (inject_Z g) r) * inject_Z c == inject_Z (int_period m g r * c)).
  { intros r. rewrite clamp_int, inject_Z_mult. reflexivity. }
  assert (POS : forall r, (1 <= int_period m g r)%Z) by (intros r; unfold int_period; lia).
  assert (FL : forall r, Qfloor (clamp_period (inject_Z m) (inject_Z g) (round_period (inject_Z g) r) * inject_Z c) = (int_period m g r * c)%Z).
  { intros r. rewrite (Qfloor_comp _ _ (PER r)). apply Qfloor_Z. }
  set (per := fun r => clamp_period (inject_Z m) (inject_Z g) (round_period (inject_Z g) r)) in *.
  assert (CE : forall y r, 0 <= y -> y <= 1 -> (0 <= Qceiling (y * per r * inject_Z c) <= int_period m g r * c)%Z).
  { intros y r Y0 Y1. assert (E : y * per r * inject_Z c == y * inject_Z (int_period m g r * c)) by (rewrite <- PER; unfold per; ring).
    rewrite (Qceiling_comp _ _ E). assert (IP : 0 <= inject_Z (int_period m g r * c)) by (apply inject_nonneg; specialize (POS r); nia). split.
    - change 0%Z with (Qceiling 0). apply Qceiling_resp_le. apply Qmult_le_0_compat; assumption.
    - apply Z.le_trans with (Qceiling (inject_Z (int_period m g r * c))); [|rewrite Qceiling_Z; lia]. apply Qceiling_resp_le.
      setoid_replace (inject_Z (int_period m g r * c)) with (1 * inject_Z (int_period m g r * c)) at 2 by ring. apply Qmult_le_compat_r; assumption. }
  rewrite quantize_inplace_all.
  - exists (Qceiling (xi * per ri * inject_Z c)). split.
    + rewrite map_map. erewrite map_nth_error; [|apply nth_error_combine; [eassumption|rewrite map_map; apply map_nth_error; eassumption]].
      unfold quantized, plain_otask. cbn [fst snd o_cost o_period o_deadline o_wss o_early o_jitter]. rewrite FL. reflexivity.
    + rewrite Forall_forall in X. destruct (X xi (nth_error_In _ _ NX)) as [X0 X1]. split; [apply CE; assumption|].
      rewrite <- PER. fold (per ri). pose proof (Qle_ceiling (xi * per ri * inject_Z c)) as Q1. pose proof (Qceiling_lt (xi * per ri * inject_Z c)) as Q2.
      rewrite <- Z.add_opp_r, inject_Z_plus in Q2. change (inject_Z (- (1))) with (- (1)) in Q2. lra.
  - apply Forall_forall. intros t I. apply in_map_iff in I. destruct I as [[y p] [<- I]]. pose proof (in_combine_l _ _ _ _ I) as IY. pose proof (in_combine_r _ _ _ _ I) as IP.
    rewrite map_map in IP. apply in_map_iff in IP. destruct IP as [r [<- _]]. fold (per r). rewrite Forall_forall in X. destruct (X y IY) as [X0 X1].
    unfold fits_quantized, plain_otask. cbn [fst snd o_cost o_period o_deadline]. rewrite qmin_same. unfold per at 1 3. rewrite FL.
    specialize (POS r). specialize (CE y r X0 X1). assert (IP : 0 < inject_Z (int_period m g r * c)) by (apply inject_pos; nia). split; [lra|].
    apply Qle_shift_div_r; [assumption|]. rewrite Qmult_1_l, <- Zle_Qle. tauto.
Qed.
