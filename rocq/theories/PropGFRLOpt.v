(** More theorems for C78: the factor that G-FRL searches for exists and is the smallest one. *)
From Coq Require Import ZArith QArith Qround Lqa List Bool Lia Permutation.
From Verif Require Import Base SpecUni SpecQPA SpecGlobal SpecTardiness ModelTasks ProofTasks ModelTardiness ModelGFRL SpecGFRL
  ProofTardiness ProofTardinessSafe ProofTardinessTop PropTardiness ProofGFRL ProofGFRLSafe ProofGFRLExists PropGFRL.
Import ListNotations.
Open Scope Q_scope.

Section Optimal.
  Variables (ts : taskset) (m : nat) (L s : Q) (qps : list Q).
  Hypothesis Hts : Forall srt_task ts.
  Hypothesis Hne : ts <> [].
  Hypothesis Hm : (1 <= m)%nat.
  Hypothesis HU : ts_utilization ts None <= inject_Z (Z.of_nat m).
  Hypothesis Hlen : length qps = length ts.
  Let mq := inject_Z (Z.of_nat m).
  Let K := Z.to_nat (Qceiling (ts_utilization ts None) - 1).
  Let tk i := nth i ts dtask.
  Let p i := nth i qps 0.
  Let cm i := zdivq (t_cost (tk i)) (Z.of_nat m).
  Let C i := inject_Z (t_cost (tk i)).
  Let U i := utilization (tk i).
  Hypothesis Hp : forall i, (i < length ts)%nat -> 0 <= p i /\ p i <= inject_Z (t_period (tk i)).
  Hypothesis Hb : forall i, (i < length ts)%nat -> p i + s - cm i + C i <= L * inject_Z (t_deadline (tk i)).
  Hypothesis Hc : forall A, index_set (length ts) K A -> delaying mq (map qtriple_of (combine ts qps)) s A <= mq * s.

  Lemma o_func : func_val L ts (Z.of_nat m) <= 0.
  Proof.
    destruct (z_K ts m Hts Hm HU) as (_ & HK).
    destruct (largest_witness (map (fun t => Gi_val t L ts (Z.of_nat m)) ts) (Qceiling (ts_utilization ts None) - 1)) as (A & HA & EA); [rewrite map_length; exact HK|].
    rewrite map_length in HA. specialize (Hc A HA). destruct HA as (A1 & A2 & A3).
    set (s' := gs_val L ts (Z.of_nat m)).
    assert (Hs : s <= s').
    { destruct (z_min ts m L Hts Hne HU) as (_ & t & Ht & Es). destruct (In_nth _ _ dtask Ht) as (i & Hi & Ei). fold (tk i) in Ei.
      unfold s'. rewrite Es, <- Ei, (z_point ts m L Hm). fold (cm i) (C i). destruct (Hp i Hi) as (P1 & _). specialize (Hb i Hi). lra. }
    set (p' := fun i => pp_of ts m L (tk i)).
    assert (Hp' : forall i, (i < length ts)%nat -> p i - (s' - s) <= p' i).
    { intros i Hi. destruct (z_pp ts m L Hts Hne Hm HU (tk i) (nth_In _ _ Hi)) as (_ & _ & _ & _ & P5). fold (p' i) in P5.
      rewrite (z_point ts m L Hm) in P5. fold (cm i) (C i) s' in P5. destruct (Hp i Hi) as (_ & P2). specialize (Hb i Hi). destruct P5; lra. }
    rewrite (qs_ext _ _ (fun i => U i * (s' - cm i + p' i))) in EA.
    2:{ intros i Hi. rewrite (nth_indep _ 0 (Gi_val dtask L ts (Z.of_nat m))) by (rewrite map_length; apply A2, Hi).
        rewrite (map_nth (fun t => Gi_val t L ts (Z.of_nat m))). rewrite (z_G ts m L Hts Hne Hm HU) by (apply nth_In, A2, Hi). reflexivity. }
    unfold func_val, G_val. rewrite EA. rewrite (z_fun ts m L Hts Hne Hm HU). fold s' mq.
    set (R := filter (fun i => negb (existsb (Nat.eqb i) A)) (seq 0 (length ts))).
    assert (HR : forall i, In i R -> (i < length ts)%nat) by (intros i Hi; apply filter_In in Hi; destruct Hi as (Hi & _); apply in_seq in Hi; lia).
    assert (P : forall f : nat -> Q, qsum (map f (seq 0 (length ts))) == qsum (map f A) + qsum (map f R)).
    { intros f. rewrite <- qs_app. apply qs_perm. symmetry. apply index_complement; assumption. }
    unfold delaying in Hc. change (fold_right Qplus 0) with qsum in Hc.
    rewrite (map_index _ _ (fun t => cost_q t - util_q t * snd t) (0%Z, 1%Z, 0)) in Hc. rewrite map_length, combine_length, Hlen, Nat.min_id in Hc.
    rewrite (qs_ext _ (fun i => cost_q (nth i (map qtriple_of (combine ts qps)) (0%Z, 1%Z, 0)) - _) (fun i => C i - U i * p i)) in Hc.
    2:{ intros i Hi. apply in_seq in Hi. rewrite r_nth by (try exact Hlen; lia). reflexivity. }
    rewrite (qs_ext _ _ (fun i => U i * (s - cm i + p i)) A) in Hc.
    2:{ intros i Hi. cbv zeta. rewrite r_nth by (try exact Hlen; apply A2, Hi). reflexivity. }
    rewrite (map_index _ _ _ dtask).
    rewrite (P (fun i => inject_Z (t_cost (nth i ts dtask)) - utilization (nth i ts dtask) * pp_of ts m L (nth i ts dtask))).
    change (fun i => inject_Z (t_cost (nth i ts dtask)) - utilization (nth i ts dtask) * pp_of ts m L (nth i ts dtask)) with (fun i => C i - U i * p' i).
    rewrite (P (fun i => C i - U i * p i)) in Hc.
    assert (EU : ts_utilization ts None == qsum (map U A) + qsum (map U R)).
    { cbn [ts_utilization]. rewrite (map_index _ _ _ dtask). apply (P U). }
    assert (HUi : forall i, (i < length ts)%nat -> 0 <= U i) by (intros i Hi; apply (z_task ts m Hts Hm); apply nth_In; exact Hi).
    assert (E1 : qsum (map (fun i => (C i - U i * p' i) + U i * (s' - cm i + p' i)) A) ==
      qsum (map (fun i => ((C i - U i * p i) + U i * (s - cm i + p i)) + U i * (s' - s)) A)) by (apply qs_ext; intros i Hi; ring).
    assert (E2 : qsum (map (fun i => C i - U i * p' i) R) <= qsum (map (fun i => (C i - U i * p i) + U i * (s' - s)) R)).
    { apply qs_le. intros i Hi. specialize (HR i Hi). pose proof (HUi i HR). pose proof (Hp' i HR). nra. }
    rewrite !qs_add, !qs_mul in E1. rewrite !qs_add, !qs_mul in E2.
    assert (E3 : ts_utilization ts None * (s' - s) == qsum (map U A) * (s' - s) + qsum (map U R) * (s' - s)) by (rewrite EU; ring).
    assert (E4 : 0 <= (mq - ts_utilization ts None) * (s' - s)) by (apply Qmult_le_0_compat; unfold mq; lra). lra.
  Qed.
End Optimal.

(** ** No priority points between 0 and the period that satisfy the compliance
    condition, for any s, have a smaller largest ratio of bound to deadline. *)
Theorem C78_optimal : forall zero (m : nat) ts pps, (1 <= m)%nat -> Forall rt_task ts -> Forall (fun t => 1 <= t_deadline t)%Z ts -> ts <> [] ->
  gfrl_response_bounds (Some zero) (Z.of_nat m) ts = GfrlTypeError pps ->
  let mq := inject_Z (Z.of_nat m) in
  let K := Z.to_nat (Qceiling (qsum (map utilization ts)) - 1) in
  let tk i := nth i ts (Task 0 1 1) in
  forall qps s L, length qps = length ts ->
    (forall i, (i < length ts)%nat -> 0 <= nth i qps 0 /\ nth i qps 0 <= inject_Z (t_period (tk i))) ->
    (forall A, NoDup A -> (forall i, In i A -> (i < length ts)%nat) -> length A = K -> delaying mq (map qtriple_of (combine ts qps)) s A <= mq * s) ->
    (forall i, (i < length ts)%nat ->
      nth i qps 0 + s - inject_Z (t_cost (tk i)) / mq + inject_Z (t_cost (tk i)) <= L * inject_Z (t_deadline (tk i))) ->
    zero <= L.
Proof.
  intros zero m ts pps Hm Hrt HD Hne E mq K tk qps s L Hl Hp Hc Hb. destruct (asserted _ _ _ _ Hrt E) as (Hts & HU & Hz & _).
  assert (Hbt : has_bounded_tardiness (Z.of_nat m) ts = true).
  { unfold gfrl_response_bounds in E. destruct (has_bounded_tardiness (Z.of_nat m) ts); [reflexivity|discriminate]. }
  destruct (Qlt_le_dec L zero) as [H|H]; [exfalso|exact H].
  pose proof (C78_decreasing m ts L zero Hm Hrt HD Hbt Hne H) as D.
  assert (F : func_val L ts (Z.of_nat m) <= 0).
  { apply (o_func ts m L s qps); try assumption. intros A (A1 & A2 & A3). apply Hc; assumption. }
  lra.
Qed.
Print Assumptions C78_optimal.

(** zero priority points (global FIFO) satisfy the compliance condition for the task
    set of C78_sample with s = 7, and reach a factor of 3 > 104/47 *)
Definition fifo_points : list Q := [0; 0; 0].
Lemma one_index : forall A, NoDup A -> (forall i, In i A -> (i < 3)%nat) -> length A = 1%nat -> A = [0]%nat \/ A = [1]%nat \/ A = [2]%nat.
Proof.
  intros A _ H E. destruct A as [|a [|]]; try discriminate. specialize (H a (or_introl eq_refl)). destruct a as [|[|[|a]]]; auto; lia.
Qed.
Example C78_fifo : exists L s, (forall i, (i < 3)%nat -> 0 <= nth i fifo_points 0 /\ nth i fifo_points 0 <= inject_Z (t_period (nth i gfrl_ts (Task 0 1 1)))) /\
  (forall A, NoDup A -> (forall i, In i A -> (i < 3)%nat) -> length A = Z.to_nat (Qceiling (qsum (map utilization gfrl_ts)) - 1) ->
     delaying 2 (map qtriple_of (combine gfrl_ts fifo_points)) s A <= 2 * s) /\
  (forall i, (i < 3)%nat -> nth i fifo_points 0 + s - inject_Z (t_cost (nth i gfrl_ts (Task 0 1 1))) / 2 + inject_Z (t_cost (nth i gfrl_ts (Task 0 1 1)))
     <= L * inject_Z (t_deadline (nth i gfrl_ts (Task 0 1 1)))) /\ gfrl_zero < L.
Proof.
  exists (9 # 3), 7. split; [|split; [|split]].
  - intros i Hi. destruct i as [|[|[|i]]]; [vm_compute; split; discriminate..|lia].
  - intros A A1 A2 A3. change (Z.to_nat (Qceiling (qsum (map utilization gfrl_ts)) - 1)) with 1%nat in A3.
    destruct (one_index A A1 A2 A3) as [->|[->| ->]]; vm_compute; discriminate.
  - intros i Hi. destruct i as [|[|[|i]]]; [vm_compute; discriminate..|lia].
  - vm_compute. reflexivity.
Qed.

(** ** What the search looks for exists, as a fraction *)
Theorem C78_exists : forall (m : nat) ts, (1 <= m)%nat -> Forall rt_task ts -> Forall (fun t => 1 <= t_deadline t)%Z ts -> ts <> [] ->
  has_bounded_tardiness (Z.of_nat m) ts = true ->
  exists zero pps, gfrl_response_bounds (Some zero) (Z.of_nat m) ts = GfrlTypeError pps.
Proof.
  intros m ts Hm Hrt HD Hne Hb. destruct (bounded_srt _ _ Hrt Hb) as (Hts & HU). destruct (z_K ts m Hts Hm HU) as (K1 & K2).
  set (f := fun L => func_val L ts (Z.of_nat m)).
  assert (Hf : forall a b, a <= b -> f b <= f a - (b - a)).
  { intros a b Hab. pose proof (d_func ts m Hts HD Hne Hm HU a b Hab) as F. pose proof (d_s ts m Hts HD Hne HU a b Hab) as G. fold (f a) (f b) in F.
    set (U := ts_utilization ts None) in *. set (K := Z.to_nat (Qceiling U - 1)) in *.
    assert (HK : inject_Z (Z.of_nat K) + 1 <= inject_Z (Z.of_nat m)).
    { change 1 with (inject_Z 1). rewrite <- inject_Z_plus, <- Zle_Qle. exact K1. }
    set (ds := gs_val b ts (Z.of_nat m) - gs_val a ts (Z.of_nat m)) in *.
    assert (0 <= (inject_Z (Z.of_nat m) - U) * (ds - (b - a))) by (apply Qmult_le_0_compat; unfold ds; lra).
    assert (0 <= (inject_Z (Z.of_nat m) - inject_Z (Z.of_nat K) - 1) * (b - a)) by (apply Qmult_le_0_compat; lra). lra. }
  assert (Z : exists x, f x == 0).
  { pose proof (PL_func (Z.of_nat m) ts K2) as P. fold f in P. destruct (Qlt_le_dec (f 0) 0) as [H|H].
    - pose proof (Hf (f 0) 0 ltac:(lra)) as X. destruct (pl_zero f (f 0) 0) as (x & _ & _ & E); [apply P; lra|lra|lra|exists x; exact E].
    - pose proof (Hf 0 (f 0) ltac:(lra)) as X. destruct (pl_zero f 0 (f 0)) as (x & _ & _ & E); [apply P; lra|lra|lra|exists x; exact E]. }
  destruct Z as (x & E). exists x, (gfrl_pps x ts (Z.of_nat m)). unfold gfrl_response_bounds. rewrite Hb. cbn [negb].
  apply Qeq_bool_iff in E. unfold f in E. rewrite E. reflexivity.
Qed.
Print Assumptions C78_exists.

Example C78_exists_sample : Forall rt_task gfrl_ts /\ Forall (fun t => 1 <= t_deadline t)%Z gfrl_ts /\ has_bounded_tardiness 2 gfrl_ts = true /\
  func_val 2 gfrl_ts 2 == 1 /\ func_val 3 gfrl_ts 2 == - (37 # 10).
Proof. split; [repeat constructor; cbn; lia|]. split; [repeat constructor; cbn; lia|]. vm_compute. auto. Qed.
