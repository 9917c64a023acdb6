(** Proofs about the task generators. *)
From Coq Require Import ZArith QArith Qround List Bool Lia Lqa Permutation.
From Verif Require Import Base ModelTasks ModelOverheads ModelGen SpecGen.
Import ListNotations.
Open Scope Q_scope.

Lemma total_util_app : forall a b, total_util (a ++ b) == total_util a + total_util b.
Proof. induction a as [|t a IH]; intros b; cbn [app total_util]; [lra|]. rewrite IH. lra. Qed.

Lemma total_app : forall a b, total (a ++ b) == total a + total b.
Proof. induction a as [|t a IH]; intros b; cbn [app total]; [lra|]. rewrite IH. lra. Qed.

Lemma Qle_bool_false : forall a b, Qle_bool a b = false <-> b < a.
Proof.
  intros a b. split; intros H.
  - apply Qnot_le_lt. intros E. apply Qle_bool_iff in E. congruence.
  - destruct (Qle_bool a b) eqn:E; [|reflexivity]. apply Qle_bool_iff in E. lra.
Qed.

Lemma scaled_eq : forall conv x, scaled conv x = (if (conv x <? 1)%Z then 1 else conv x)%Z.
Proof. intros conv x. unfold scaled. destruct (Z.ltb_spec (conv x) 1); lia. Qed.

Lemma scaled_pos : forall conv x, (1 <= scaled conv x)%Z.
Proof. intros. unfold scaled. lia. Qed.

Lemma task_of_scaled : forall conv d, task_of conv d =
  Task (scaled conv (d_period d * d_util d)) (scaled conv (d_period d)) (scaled conv (d_deadline d (d_period d * d_util d) (d_period d))).
Proof. intros. unfold task_of. rewrite !scaled_eq. reflexivity. Qed.

(** ** Rounding *)
Lemma qtrunc_nonneg : forall q, 0 <= q -> qtrunc q = Qfloor q.
Proof.
  intros [a b] H. unfold qtrunc, Qfloor. cbn [Qnum Qden]. unfold Qle in H. cbn [Qnum Qden] in H. apply Z.quot_div_nonneg; lia.
Qed.

Lemma qtrunc_neg : forall q, q <= 0 -> qtrunc q = Qceiling q.
Proof.
  intros [a b] H. unfold qtrunc, Qceiling, Qfloor, Qopp. cbn [Qnum Qden]. unfold Qle in H. cbn [Qnum Qden] in H.
  rewrite <- (Z.opp_involutive a) at 1. rewrite Z.quot_opp_l by lia. f_equal. apply Z.quot_div_nonneg; lia.
Qed.

Lemma qtrunc_mono : monotone qtrunc.
Proof.
  intros a b H. destruct (Qlt_le_dec a 0) as [A|A].
  - destruct (Qlt_le_dec b 0) as [B|B].
    + rewrite !qtrunc_neg by lra. apply Qceiling_resp_le. assumption.
    + rewrite (qtrunc_neg a), (qtrunc_nonneg b) by lra. apply Z.le_trans with 0%Z.
      * replace 0%Z with (Qceiling 0) by reflexivity. apply Qceiling_resp_le. lra.
      * replace 0%Z with (Qfloor 0) by reflexivity. apply Qfloor_resp_le. assumption.
  - rewrite !qtrunc_nonneg by lra. apply Qfloor_resp_le. assumption.
Qed.

Lemma inject_pos : forall z, (1 <= z)%Z -> 0 < inject_Z z.
Proof. intros z H. change 0 with (inject_Z 0). rewrite <- Zlt_Qlt. lia. Qed.

Lemma inject_nonneg : forall z, (0 <= z)%Z -> 0 <= inject_Z z.
Proof. intros z H. change 0 with (inject_Z 0). rewrite <- Zle_Qle. assumption. Qed.

(** ** The loop *)
Section Loop.
Variables (max_tasks : option Z) (max_util : option Q) (squeeze : bool) (conv : Q -> Z) (draws : nat -> draw).

Definition may (count : nat) (x : Q) : Prop :=
  (forall n, max_tasks = Some n -> (Z.of_nat count < n)%Z) /\ (forall u, max_util = Some u -> x < u).

Lemma proceed_may : forall count x, proceed max_tasks max_util count x = true <-> may count x.
Proof.
  intros count x. unfold proceed, may. rewrite andb_true_iff. split; intros [A B]; split.
  - intros n E. rewrite E in A. apply Z.ltb_lt in A. assumption.
  - intros u E. rewrite E in B. apply negb_true_iff, Qle_bool_false in B. assumption.
  - destruct max_tasks as [n|]; [|reflexivity]. apply Z.ltb_lt, A. reflexivity.
  - destruct max_util as [u|]; [|reflexivity]. apply negb_true_iff, Qle_bool_false, B. reflexivity.
Qed.

Definition tk (k : nat) : task := task_of conv (draws k).
Definition upto (count n : nat) : list task := map tk (seq count n).

(** the three ways in which the loop ends after [n] full tasks *)
Definition ends (count n : nat) (usum : Q) (tail : list task) : Prop :=
  let x := usum + total_util (upto count n) in
  let x' := usum + total_util (upto count (S n)) in
  (tail = [] /\ ~ may (count + n) x) \/
  (exists u, max_util = Some u /\ may (count + n) x /\ u < x' /\
    ((squeeze = false /\ tail = []) \/
     (squeeze = true /\ exists c, tail = [Task c (t_period (tk (count + n))) (t_deadline (tk (count + n)))] /\
        exists r, r == inject_Z (t_period (tk (count + n))) * (u - x) /\ c = qtrunc r))).

Lemma upto_S : forall count n, upto count (S n) = tk count :: upto (S count) n.
Proof. reflexivity. Qed.

Lemma may_ext : forall c x y, x == y -> may c x -> may c y.
Proof. intros c x y E [A B]. split; [assumption|]. intros u H. apply B in H. lra. Qed.

Lemma tk_util : forall k, inject_Z (t_cost (tk k)) / inject_Z (t_period (tk k)) =
  zdivq (scaled conv (d_period (draws k) * d_util (draws k))) (scaled conv (d_period (draws k))).
Proof. intros k. unfold tk. rewrite task_of_scaled. reflexivity. Qed.

Lemma tk_pos : forall k, (1 <= t_cost (tk k) /\ 1 <= t_period (tk k) /\ 1 <= t_deadline (tk k))%Z.
Proof. intros k. unfold tk. rewrite task_of_scaled. cbn [t_cost t_period t_deadline]. pose proof scaled_pos as S. repeat split; apply S. Qed.

Lemma tk_util_pos : forall k, 0 < inject_Z (t_cost (tk k)) / inject_Z (t_period (tk k)).
Proof.
  intros k. destruct (tk_pos k) as [A [B _]]. apply inject_pos in A, B. apply Qlt_shift_div_l; [assumption|]. lra.
Qed.

Lemma total_upto_nonneg : forall n count, 0 <= total_util (upto count n).
Proof.
  induction n as [|n IH]; intros count; [cbn; lra|]. rewrite upto_S. cbn [total_util]. pose proof (tk_util_pos count). pose proof (IH (S count)). lra.
Qed.

Lemma tasks_shape : forall fuel count usum ts, 0 <= usum -> tasks fuel max_tasks max_util squeeze conv draws count usum = Some ts ->
  exists n tail, ts = upto count n ++ tail /\ ends count n usum tail /\
    forall j, (j < n)%nat -> may (count + j) (usum + total_util (upto count j)) /\ forall u, max_util = Some u -> usum + total_util (upto count (S j)) <= u.
Proof.
  induction fuel as [|fuel IH]; intros count usum ts NN H; [discriminate|]. cbn [tasks] in H.
  destruct (proceed max_tasks max_util count usum) eqn:E.
  2:{ inv H. exists 0%nat, []. split; [reflexivity|]. split; [|intros j L; lia]. left. split; [reflexivity|]. intros M.
      assert (F : proceed max_tasks max_util count usum = true).
      { apply proceed_may. rewrite Nat.add_0_r in M. eapply may_ext; [|exact M]. cbn [upto seq map total_util]. lra. }
      congruence. }
  apply proceed_may in E. rewrite <- tk_util in H.
  pose proof (tk_util_pos count) as P. set (v := inject_Z (t_cost (tk count)) / inject_Z (t_period (tk count))) in *.
  assert (STEP : forall ts', (forall u, max_util = Some u -> usum + v <= u) ->
    tasks fuel max_tasks max_util squeeze conv draws (S count) (usum + v) = Some ts' ->
    exists n tail, tk count :: ts' = upto count n ++ tail /\ ends count n usum tail /\
    forall j, (j < n)%nat -> may (count + j) (usum + total_util (upto count j)) /\ forall u, max_util = Some u -> usum + total_util (upto count (S j)) <= u).
  { intros ts' LE R. apply IH in R; [|lra]. destruct R as [n [tail [S1 [S2 S3]]]]. exists (S n), tail. split; [|split].
    - rewrite S1, upto_S. reflexivity.
    - assert (Q1 : usum + v + total_util (upto (S count) n) == usum + total_util (upto count (S n))) by (rewrite upto_S; cbn [total_util]; fold v; lra).
      assert (Q2 : usum + v + total_util (upto (S count) (S n)) == usum + total_util (upto count (S (S n)))).
      { rewrite (upto_S count (S n)). cbn [total_util]. fold v. lra. }
      destruct S2 as [[T M]|[u [U [M [L T]]]]].
      + left. split; [assumption|]. intros M'. apply M. rewrite Nat.add_succ_r in M'. eapply may_ext; [|exact M']. lra.
      + right. exists u. rewrite Nat.add_succ_r. split; [assumption|]. split; [|split].
        * eapply may_ext; [|exact M]. lra.
        * lra.
        * destruct T as [T|[T1 [c [T2 [r [T3 T4]]]]]]; [left; assumption|]. right. split; [assumption|]. exists c. split; [assumption|].
          exists r. split; [|assumption]. rewrite T3. cbn [Nat.add]. rewrite Q1. reflexivity.
    - intros [|j] L.
      + split.
        * rewrite Nat.add_0_r. eapply may_ext; [|exact E]. cbn [upto seq map total_util]. lra.
        * intros u U. cbn [upto seq map total_util]. fold v. apply LE in U. lra.
      + destruct (S3 j ltac:(lia)) as [M C]. split.
        * rewrite Nat.add_succ_r. eapply may_ext; [|exact M]. rewrite upto_S. cbn [total_util]. fold v. lra.
        * intros u U. apply C in U. rewrite (upto_S count (S j)). cbn [total_util]. fold v. lra. }
  assert (EQ : forall c p d, c = scaled conv (d_period (draws count) * d_util (draws count)) -> p = scaled conv (d_period (draws count)) ->
    d = scaled conv (d_deadline (draws count) (d_period (draws count) * d_util (draws count)) (d_period (draws count))) -> Task c p d = tk count).
  { intros c p d -> -> ->. unfold tk. rewrite task_of_scaled. reflexivity. }
  assert (CONT : (forall u, max_util = Some u -> usum + v <= u) ->
    option_map (cons (Task (scaled conv (d_period (draws count) * d_util (draws count))) (scaled conv (d_period (draws count)))
       (scaled conv (d_deadline (draws count) (d_period (draws count) * d_util (draws count)) (d_period (draws count))))))
       (tasks fuel max_tasks max_util squeeze conv draws (S count) (usum + v)) = Some ts -> 
    exists n tail, ts = upto count n ++ tail /\ ends count n usum tail /\
    forall j, (j < n)%nat -> may (count + j) (usum + total_util (upto count j)) /\ forall u, max_util = Some u -> usum + total_util (upto count (S j)) <= u).
  { intros LE R. destruct (tasks fuel max_tasks max_util squeeze conv draws (S count) (usum + v)) as [ts'|] eqn:T; [|discriminate].
    cbn [option_map] in R. inv R. rewrite (EQ _ _ _ eq_refl eq_refl eq_refl). apply STEP; [assumption|reflexivity]. }
  destruct max_util as [u|] eqn:MU; [|apply CONT; [discriminate|assumption]].
  destruct (negb (Qeq_bool u 0) && negb (Qle_bool (usum + v) u)) eqn:X.
  2:{ apply CONT; [|assumption]. intros u' U. inv U. apply andb_false_iff in X. destruct X as [X|X]; apply negb_false_iff in X.
      - apply Qeq_bool_iff in X. destruct E as [_ E]. specialize (E _ MU). lra.
      - apply Qle_bool_iff in X. assumption. }
  apply andb_true_iff in X. destruct X as [X0 X]. apply negb_true_iff, Qle_bool_false in X.
  assert (XX : u < usum + total_util (upto count 1)) by (cbn [upto seq map total_util]; fold v; lra).
  destruct squeeze eqn:SQ.
  - destruct fuel as [|fuel]; [discriminate|]. cbn [tasks] in H.
    assert (N : proceed max_tasks (Some u) (S count) (usum + v) = false).
    { unfold proceed. apply andb_false_iff. right. apply negb_false_iff, Qle_bool_iff. lra. }
    rewrite N in H. cbn [option_map] in H. inv H. exists 0%nat. eexists. split; [reflexivity|]. split; [|intros j L; lia].
    right. exists u. split; [assumption|]. rewrite Nat.add_0_r. split; [eapply may_ext; [|exact E]; cbn [upto seq map total_util]; lra|]. split; [exact XX|].
    right. split; [assumption|]. eexists. split.
    + unfold tk at 1 2. rewrite task_of_scaled. cbn [t_period t_deadline]. reflexivity.
    + eexists. split; [|reflexivity]. unfold tk at 1. rewrite task_of_scaled. cbn [t_period]. cbn [upto seq map total_util]. ring.
  - inv H. exists 0%nat, []. split; [reflexivity|]. split; [|intros j L; lia]. right. exists u. split; [assumption|].
    rewrite Nat.add_0_r. split; [eapply may_ext; [|exact E]; cbn [upto seq map total_util]; lra|]. split; [exact XX|]. left. split; [assumption|reflexivity].
Qed.

End Loop.
