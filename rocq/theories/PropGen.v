(** C34: the task set generators respect their caps. *)
From Coq Require Import ZArith QArith Qround List Bool Lia Lqa Permutation String.
From Verif Require Import Base ModelTasks ModelOverheads ModelGen SpecGen ProofGen ProofGenSum ProofGenCaps.
Import ListNotations.
Open Scope Q_scope.

(** ** TaskGenerator *)

(** draws used in the examples: period 10, utilizations 1/2, 3/10, 2/5, 2/5, ... *)
Definition ex_draws (k : nat) : draw := Draw 10 (match k with 0%nat => 1 # 2 | 1%nat => 3 # 10 | _ => 2 # 5 end) implicit_deadlines.

(** The utilization never exceeds the cap, whatever is drawn and however times
    are converted. *)
Theorem C34_util_cap : forall fuel max_tasks u squeeze conv draws ts, 0 <= u ->
  make_task_set fuel max_tasks (Some u) squeeze conv draws = Some ts -> total_util ts <= u.
Proof. intros fuel mt u sq conv draws ts U R. eapply util_cap; [exact R|reflexivity|assumption]. Qed.
Print Assumptions C34_util_cap.

Example C34_util_cap_case : make_task_set 10 None (Some 1) false qtrunc ex_draws = Some [Task 5 10 10; Task 3 10 10] /\
  make_task_set 10 None (Some 1) true qtrunc ex_draws = Some [Task 5 10 10; Task 3 10 10; Task 2 10 10].
Proof. vm_compute. split; reflexivity. Qed.

(** Neither does the number of tasks. *)
Theorem C34_count_cap : forall fuel n max_util squeeze conv draws ts,
  make_task_set fuel (Some n) max_util squeeze conv draws = Some ts -> (Z.of_nat (List.length ts) <= Z.max 0 n)%Z.
Proof. intros fuel n mu sq conv draws ts R. eapply count_cap; [exact R|reflexivity]. Qed.
Print Assumptions C34_count_cap.

Example C34_count_cap_case : make_task_set 10 (Some 1%Z) (Some 1) false qtrunc ex_draws = Some [Task 5 10 10].
Proof. reflexivity. Qed.

(** The k-th task is the one of the k-th draw, with all parameters at least
    one; only the last one can be squeezed, which lowers its cost only. *)
Theorem C34_in_order : forall fuel max_tasks max_util squeeze conv draws ts k t,
  make_task_set fuel max_tasks max_util squeeze conv draws = Some ts -> nth_error ts k = Some t ->
  t = task_of conv (draws k) \/
  (squeeze = true /\ S k = List.length ts /\ t_period t = t_period (task_of conv (draws k)) /\
   t_deadline t = t_deadline (task_of conv (draws k)) /\ (0 <= t_cost t < t_cost (task_of conv (draws k)))%Z).
Proof. intros fuel mt mu sq conv draws ts k t R N. exact (drawn _ _ _ _ _ _ _ R k t N). Qed.
Print Assumptions C34_in_order.

Example C34_in_order_case : nth_error [Task 5 10 10; Task 3 10 10; Task 2 10 10] 2 = Some (Task 2 10 10) /\ task_of qtrunc (ex_draws 2) = Task 4 10 10.
Proof. vm_compute. split; reflexivity. Qed.

(** Every task has positive parameters, unless it was squeezed. *)
Theorem C34_positive : forall fuel max_tasks max_util squeeze conv draws ts t,
  make_task_set fuel max_tasks max_util squeeze conv draws = Some ts -> In t ts ->
  (1 <= t_period t /\ 1 <= t_deadline t /\ 0 <= t_cost t /\ (squeeze = false -> 1 <= t_cost t))%Z.
Proof.
  intros fuel mt mu sq conv draws ts t R I. apply In_nth_error in I. destruct I as [k N].
  pose proof (tk_pos conv draws k) as [P1 [P2 P3]]. unfold tk in *.
  destruct (C34_in_order _ _ _ _ _ _ _ _ _ R N) as [->|[SQ [_ [E1 [E2 E3]]]]]; [lia|]. rewrite E1, E2. split; [lia|]. split; [lia|]. split; [lia|]. congruence.
Qed.
Print Assumptions C34_positive.

Example C34_positive_case : In (Task 3 10 10) [Task 5 10 10; Task 3 10 10].
Proof. right. left. reflexivity. Qed.

(** Generation goes on until a cap stops it: the number of tasks is reached, or
    the utilization is, or the next task drawn would exceed it (without
    squeezing), or the squeezed task fills it up to one time unit. *)
Theorem C34_reaches : forall fuel max_tasks max_util squeeze conv draws ts,
  make_task_set fuel max_tasks max_util squeeze conv draws = Some ts ->
  (exists n, max_tasks = Some n /\ (n <= Z.of_nat (List.length ts))%Z) \/
  (exists u, max_util = Some u /\
    (u <= total_util ts \/
     (squeeze = false /\ u < total_util (ts ++ [task_of conv (draws (List.length ts))])) \/
     (squeeze = true /\ exists t, last (map Some ts) None = Some t /\ u < total_util ts + 1 / inject_Z (t_period t)))).
Proof. intros fuel mt mu sq conv draws ts R. exact (reaches _ _ _ _ _ _ _ R). Qed.
Print Assumptions C34_reaches.

Example C34_reaches_case : 1 < total_util ([Task 5 10 10; Task 3 10 10] ++ [task_of qtrunc (ex_draws 2)]).
Proof. vm_compute. reflexivity. Qed.

(** Feasible draws make feasible tasks, also with squeezing: cost <= period if
    the drawn utilization is at most one, cost <= deadline if the drawn deadline
    is at least the cost, deadline <= period if the drawn one is. *)
Theorem C34_feasible : forall fuel max_tasks max_util squeeze conv draws ts t,
  monotone conv -> (forall k, 0 <= d_period (draws k) /\ d_util (draws k) <= 1) ->
  make_task_set fuel max_tasks max_util squeeze conv draws = Some ts -> In t ts ->
  (t_cost t <= t_period t)%Z /\
  ((forall k, d_period (draws k) * d_util (draws k) <= d_deadline (draws k) (d_period (draws k) * d_util (draws k)) (d_period (draws k))) -> (t_cost t <= t_deadline t)%Z) /\
  ((forall k, d_deadline (draws k) (d_period (draws k) * d_util (draws k)) (d_period (draws k)) <= d_period (draws k)) -> (t_deadline t <= t_period t)%Z) /\
  ((forall k, d_deadline (draws k) = implicit_deadlines) -> t_deadline t = t_period t).
Proof.
  intros fuel mt mu sq conv draws ts t M D R I. apply In_nth_error in I. destruct I as [k N]. destruct (D k) as [D1 D2].
  pose proof (task_of_feasible conv (draws k) M D1 D2) as F.
  assert (G : (t_cost t <= t_cost (task_of conv (draws k)))%Z /\ t_period t = t_period (task_of conv (draws k)) /\ t_deadline t = t_deadline (task_of conv (draws k))).
  { destruct (C34_in_order _ _ _ _ _ _ _ _ _ R N) as [->|[SQ [_ [E1 [E2 E3]]]]]; [split; [lia|split; reflexivity]|]. split; [lia|split; assumption]. }
  destruct G as [G1 [-> ->]]. rewrite task_of_scaled in *. cbn [t_cost t_period t_deadline] in *. split; [lia|]. split; [|split].
  - intros H. pose proof (scaled_le conv _ _ M (H k)). lia.
  - intros H. apply scaled_le; [assumption|]. apply H.
  - intros H. rewrite H. reflexivity.
Qed.
Print Assumptions C34_feasible.

Example C34_feasible_case : monotone qtrunc /\ forall k, 0 <= d_period (ex_draws k) /\ d_util (ex_draws k) <= 1.
Proof. split; [apply qtrunc_mono|]. intros [|[|k]]; cbn; lra. Qed.

(** uniform_slack chooses the deadline in the promised interval; in particular
    not before the cost and, for ratios up to one, not after the period. *)
Theorem C34_slack : forall lo hi r c p, 0 <= lo -> lo <= hi -> unit_draw r -> c <= p ->
  c + lo * (p - c) <= uniform_slack lo hi r c p /\ uniform_slack lo hi r c p <= c + hi * (p - c) /\
  c <= uniform_slack lo hi r c p /\ (hi <= 1 -> uniform_slack lo hi r c p <= p).
Proof.
  intros lo hi r c p L0 L U CP. destruct (slack_range lo hi r c p L0 L U CP) as [A B].
  assert (0 <= lo * (p - c)) by (apply Qmult_le_0_compat; lra). split; [assumption|]. split; [assumption|]. split; [lra|].
  intros H1. assert (hi * (p - c) <= 1 * (p - c)) by (apply Qmult_le_compat_r; lra). lra.
Qed.
Print Assumptions C34_slack.

Example C34_slack_case : unit_draw (1 # 2) /\ uniform_slack 0 1 (1 # 2) 4 10 == 7.
Proof. unfold unit_draw. split; [lra|]. vm_compute. reflexivity. Qed.

(** The generation ends: after at most n iterations with a cap n on the number
    of tasks; with a cap on the utilization if the periods are bounded. *)
Theorem C34_terminates : forall squeeze conv draws,
  (forall n max_util fuel, (Z.max 0 n < Z.of_nat fuel)%Z -> exists ts, make_task_set fuel (Some n) max_util squeeze conv draws = Some ts) /\
  (forall u max_tasks P fuel, 0 <= u -> (1 <= P)%Z -> (forall k, (conv (d_period (draws k)) <= P)%Z) -> u * inject_Z P + 1 < inject_Z (Z.of_nat fuel) ->
     exists ts, make_task_set fuel max_tasks (Some u) squeeze conv draws = Some ts).
Proof.
  intros sq conv draws. split.
  - intros n mu fuel L. apply terminates_count; lia.
  - intros u mt P fuel U P1 PB L. eapply terminates_util; [exact P1|exact PB| |].
    + lra.
    + destruct fuel; [|lia]. change (inject_Z (Z.of_nat 0)) with 0 in L. pose proof (inject_pos _ P1).
      assert (0 <= u * inject_Z P) by (apply Qmult_le_0_compat; lra). lra.
Qed.
Print Assumptions C34_terminates.

Example C34_terminates_case : forall k, (qtrunc (d_period (ex_draws k)) <= 10)%Z.
Proof. intros k. vm_compute. discriminate. Qed.

(** Without caps the generator never ends; nor need it with a cap on the
    utilization alone, if the periods grow without bound. *)
Theorem C34_terminates_refuted :
  (forall fuel squeeze conv draws, make_task_set fuel None None squeeze conv draws = None) /\
  exists draws, (forall k, 1 <= d_period (draws k) /\ 0 <= d_util (draws k) /\ d_util (draws k) <= 1) /\ forall fuel, make_task_set fuel None (Some 1) false qtrunc draws = None.
Proof.
  split; [intros; apply unbounded_diverges|].
  exists (fun k => Draw (inject_Z (2 ^ Z.of_nat (S k))) 0 implicit_deadlines). split.
  - intros k. cbn [d_period d_util]. split; [|lra]. change 1 with (inject_Z 1). rewrite <- Zle_Qle. pose proof (Z.pow_pos_nonneg 2 (Z.of_nat (S k))). lia.
  - assert (G : forall fuel count usum, usum == 1 - 1 / inject_Z (2 ^ Z.of_nat count) ->
      tasks fuel None (Some 1) false qtrunc (fun k => Draw (inject_Z (2 ^ Z.of_nat (S k))) 0 implicit_deadlines) count usum = None).
    { induction fuel as [|fuel IH]; intros count usum E; [reflexivity|]. cbn [tasks d_period d_util d_deadline].
      assert (P : (1 <= 2 ^ Z.of_nat count)%Z) by (pose proof (Z.pow_pos_nonneg 2 (Z.of_nat count)); lia).
      assert (P' : (2 ^ Z.of_nat (S count) = 2 * 2 ^ Z.of_nat count)%Z) by (rewrite Nat2Z.inj_succ, Z.pow_succ_r by lia; reflexivity).
      pose proof (inject_pos _ P) as PP. set (q := (2 ^ Z.of_nat count)%Z) in *. rewrite P'.
      assert (V : 0 < 1 / inject_Z q) by (apply Qlt_shift_div_l; lra).
      assert (PR : proceed None (Some 1) count usum = true) by (unfold proceed; cbn [andb]; apply negb_true_iff, Qle_bool_false; lra).
      rewrite PR. assert (S1 : scaled qtrunc (inject_Z (2 * q) * 0) = 1%Z).
      { unfold scaled, qtrunc. replace (Qnum (inject_Z (2 * q) * 0)) with 0%Z by (cbn [Qmult Qnum inject_Z]; lia). rewrite Z.quot_0_l by discriminate. reflexivity. }
      assert (S2 : scaled qtrunc (inject_Z (2 * q)) = (2 * q)%Z).
      { unfold scaled, qtrunc, inject_Z. cbn [Qnum Qden]. rewrite Z.quot_1_r. lia. }
      rewrite S1, S2. assert (ZD : zdivq 1 (2 * q) == 1 / inject_Z (2 * q)) by reflexivity.
      assert (HALF : 1 / inject_Z (2 * q) == (1 # 2) * (1 / inject_Z q)) by (rewrite inject_Z_mult; change (inject_Z 2) with 2; field; lra).
      assert (LE : Qle_bool (usum + zdivq 1 (2 * q)) 1 = true) by (apply Qle_bool_iff; lra).
      rewrite LE, andb_false_r. rewrite IH; [reflexivity|]. rewrite P'. rewrite ZD, E, HALF. lra. }
    intros fuel. apply G. vm_compute. reflexivity.
Qed.
Print Assumptions C34_terminates_refuted.

(** Squeezing does not always reach the cap, and the squeezed task can have no
    cost at all. *)
Theorem C34_squeeze_exact_refuted : exists draws u ts,
  make_task_set 10 None (Some u) true qtrunc draws = Some ts /\ total_util ts < u /\ exists t, In t ts /\ t_cost t = 0%Z.
Proof.
  exists (fun _ => Draw 2 (1 # 2) implicit_deadlines), (3 # 4), [Task 1 2 2; Task 0 2 2]. split; [reflexivity|]. split; [vm_compute; reflexivity|].
  exists (Task 0 2 2). split; [right; left; reflexivity|reflexivity].
Qed.
Print Assumptions C34_squeeze_exact_refuted.

(** ** Distributions *)

(** Every distribution stays in its range, for all random numbers. *)
Theorem C34_ranges :
  (forall a b v, (a <= b)%Z -> drawn_from (uniform_int a b) v -> exists z, v = inject_Z z /\ (a <= z <= b)%Z) /\
  (forall a b v, a <= b -> drawn_from (uniform a b) v -> a <= v /\ v <= b) /\
  (forall explog a b v, (a <= b)%Z -> drawn_from (log_uniform_int explog a b) v -> exists z, v = inject_Z z /\ (a <= z <= b)%Z) /\
  (forall l v, drawn_from (uniform_choice l) v -> In v l) /\
  (forall l r rs, l <> [] -> unit_draw r -> exists v, uniform_choice l (r :: rs) = Some v) /\
  (forall expo a b mean v, drawn_from (exponential expo a b mean redraw) v -> a <= v /\ v <= b) /\
  (forall expo a b mean v, a <= b -> drawn_from (exponential expo a b mean truncate) v -> a <= v /\ v <= b).
Proof.
  split; [apply uniform_int_drawn|]. split; [apply uniform_drawn|]. split; [apply log_uniform_int_drawn|]. split; [apply uniform_choice_drawn|].
  split; [apply uniform_choice_total|]. split.
  - intros expo a b mean v [rs [_ E]]. eapply redraw_range. exact E.
  - intros expo a b mean v L D. unfold exponential in D. eapply truncate_drawn; [exact L|exact D].
Qed.
Print Assumptions C34_ranges.

Example C34_ranges_case : drawn_from (uniform_int 3 33) (inject_Z 18).
Proof. exists [1 # 2]. split; [|reflexivity]. constructor; [unfold unit_draw; lra|constructor]. Qed.

(** Redrawing returns the first value in the range and nothing else; truncation
    leaves values in the range alone. *)
Theorem C34_limiters :
  (forall lo hi d rs v, redraw lo hi d rs = Some v -> exists pre r post, rs = pre ++ r :: post /\ d [r] = Some v /\
     forall q x, In q pre -> d [q] = Some x -> ~ (lo <= x /\ x <= hi)) /\
  (forall lo hi d rs x, d rs = Some x -> lo <= x -> x <= hi -> exists y, truncate lo hi d rs = Some y /\ y == x).
Proof.
  split; [apply redraw_first|]. intros lo hi d rs x D L H. unfold truncate. rewrite D. eexists. split; [reflexivity|]. unfold pymin, pymax.
  destruct (Qle_bool x lo) eqn:A; [apply Qle_bool_iff in A|apply Qle_bool_false in A]; [destruct (Qle_bool hi lo) eqn:B|destruct (Qle_bool hi x) eqn:B];
    try (apply Qle_bool_iff in B); try (apply Qle_bool_false in B); lra.
Qed.
Print Assumptions C34_limiters.

Example C34_limiters_case : redraw 0 1 (fun rs => match rs with r :: _ => Some (4 * r) | [] => None end) [1 # 2; 3 # 4; 1 # 8; 1 # 16] = Some (4 * (1 # 8)).
Proof. reflexivity. Qed.

(** A multimodal distribution always finds a mode (the assertion holds), it is
    the one into whose weight interval the random number falls, and the value is
    drawn from it. *)
Theorem C34_multimodal :
  (forall wds r rs, wds <> [] -> 0 <= total (map snd wds) -> unit_draw r ->
     exists pre d w post, wds = pre ++ (d, w) :: post /\ multimodal wds (r :: rs) = d rs /\
       r * total (map snd wds) <= total (map snd pre) + w /\ (pre = [] \/ total (map snd pre) < r * total (map snd wds))) /\
  (forall wds v, drawn_from (multimodal wds) v -> exists d w, In (d, w) wds /\ drawn_from d v).
Proof.
  split; [|apply multimodal_drawn]. intros wds r rs N P U. cbn [multimodal]. pose proof (qsum_total (map snd wds)) as QT.
  assert (X : random_uniform 0 (qsum (map snd wds)) r == r * total (map snd wds)) by (unfold random_uniform; rewrite QT; ring).
  destruct (pick_mode_total wds 0 (random_uniform 0 (qsum (map snd wds)) r)) as [d PM]; [assumption| |].
  - rewrite X. destruct U as [U0 U1]. assert (r * total (map snd wds) <= 1 * total (map snd wds)) by (apply Qmult_le_compat_r; lra). lra.
  - rewrite PM. apply pick_mode_spec in PM. destruct PM as [pre [w [post [A [B C]]]]]. exists pre, d, w, post. split; [assumption|]. split; [reflexivity|].
    rewrite X in B, C. split; [lra|]. destruct C as [C|C]; [left; assumption|]. right. lra.
Qed.
Print Assumptions C34_multimodal.

Example C34_multimodal_case : multimodal [(uniform 0 1, 8); (uniform 5 6, 1)] [17 # 18; 1 # 2] = Some (5 + (6 - 5) * (1 # 2)).
Proof. reflexivity. Qed.

(** ** The named distributions *)

(** what a generator of the table ALL_DISTS draws *)
Definition named_draw (pd ud : dist) (dd : Q -> Q -> Q -> Q) (d : draw) : Prop :=
  drawn_from pd (d_period d) /\ drawn_from ud (d_util d) /\ exists r, unit_draw r /\ d_deadline d = dd r.

Lemma named_period : forall explog pn pd v, In (pn, pd) (NAMED_PERIODS explog) -> drawn_from pd v -> exists z, v = inject_Z z /\ (3 <= z <= 250)%Z.
Proof.
  intros explog pn pd v I D. unfold NAMED_PERIODS in I. cbn [In] in I.
  assert (G : exists a b, (3 <= a <= b)%Z /\ (b <= 250)%Z /\ (pd = uniform_int a b \/ pd = log_uniform_int explog a b)).
  { repeat match goal with H : _ \/ _ |- _ => destruct H as [H|H] end; try contradiction; inv I;
      (eexists; eexists; split; [|split; [|first [left; reflexivity|right; reflexivity]]]; lia). }
  destruct G as [a [b [G1 [G2 [->| ->]]]]]; [apply uniform_int_drawn in D; [|lia]|apply log_uniform_int_drawn in D; [|lia]]; destruct D as [z [-> D]]; exists z; split; try reflexivity; lia.
Qed.

Lemma named_util : forall expo un ud v, In (un, ud) (NAMED_UTILIZATIONS expo) -> drawn_from ud v -> 0 <= v /\ v <= 1.
Proof.
  intros expo un ud v I D. unfold NAMED_UTILIZATIONS in I. cbn [In] in I.
  assert (UN : forall a b, 0 <= a -> a <= b -> b <= 1 -> drawn_from (uniform a b) v -> 0 <= v /\ v <= 1).
  { intros a b A B C E. apply uniform_drawn in E; [lra|assumption]. }
  assert (RE : forall m, drawn_from (exponential expo 0 1 m redraw) v -> 0 <= v /\ v <= 1).
  { intros m [rs [_ E]]. eapply redraw_range. exact E. }
  assert (MM : forall w1 w2, drawn_from (multimodal [(uniform (1 # 1000) (5 # 10), w1); (uniform (5 # 10) (9 # 10), w2)]) v -> 0 <= v /\ v <= 1).
  { intros w1 w2 E. apply multimodal_drawn in E. destruct E as [d [w [[E|[E|[]]] F]]]; inv E; (eapply UN; [| | |exact F]; lra). }
  repeat match goal with H : _ \/ _ |- _ => destruct H as [H|H] end; try contradiction; inv I;
    first [eapply MM; exact D|eapply RE; exact D|eapply UN; [| | |exact D]; lra].
Qed.

(** Every generator of the table ALL_DISTS: costs between 0 (1 without
    squeezing) and the period and not after the deadline, periods from 3 to 250,
    implicit and constrained deadlines as named; a cap on the utilization alone
    suffices for termination. *)
Theorem C34_named : forall explog expo pn pd un ud dn dd draws max_tasks u squeeze,
  In (pn, pd) (NAMED_PERIODS explog) -> In (un, ud) (NAMED_UTILIZATIONS expo) -> In (dn, dd) NAMED_DEADLINES -> 0 <= u ->
  (forall k, named_draw pd ud dd (draws k)) ->
  (forall fuel, u * 250 + 1 < inject_Z (Z.of_nat fuel) -> exists ts, make_task_set fuel max_tasks (Some u) squeeze qtrunc draws = Some ts) /\
  (forall fuel ts, make_task_set fuel max_tasks (Some u) squeeze qtrunc draws = Some ts ->
     total_util ts <= u /\
     forall t, In t ts -> (3 <= t_period t <= 250)%Z /\ (0 <= t_cost t <= t_period t)%Z /\ (squeeze = false -> 1 <= t_cost t)%Z /\ (t_cost t <= t_deadline t)%Z /\
       (dn = "implicit"%string -> t_deadline t = t_period t) /\ (dn = "uni-constrained"%string -> (t_deadline t <= t_period t)%Z)).
Proof.
  intros explog expo pn pd un ud dn dd draws mt u sq IP IU ID U D.
  assert (PR : forall k, exists z, d_period (draws k) = inject_Z z /\ (3 <= z <= 250)%Z) by (intros k; eapply named_period; [exact IP|apply D]).
  assert (UR : forall k, 0 <= d_util (draws k) /\ d_util (draws k) <= 1) by (intros k; eapply named_util; [exact IU|apply D]).
  assert (TR : forall z, qtrunc (inject_Z z) = z) by (intros z; unfold qtrunc, inject_Z; cbn [Qnum Qden]; apply Z.quot_1_r).
  split.
  - intros fuel L. apply (proj2 (C34_terminates sq qtrunc draws)) with (P := 250%Z); [assumption|lia| |].
    + intros k. destruct (PR k) as [z [-> Z]]. rewrite TR. lia.
    + change (inject_Z 250) with 250. assumption.
  - intros fuel ts R. split; [eapply C34_util_cap; [assumption|exact R]|]. intros t I.
    assert (PP : forall k, 0 <= d_period (draws k)) by (intros k; destruct (PR k) as [z [-> Z]]; apply inject_nonneg; lia).
    assert (CP : forall k, d_period (draws k) * d_util (draws k) <= d_period (draws k)).
    { intros k. setoid_replace (d_period (draws k)) with (1 * d_period (draws k)) at 2 by ring. rewrite (Qmult_comm (d_period (draws k))).
      apply Qmult_le_compat_r; [apply UR|apply PP]. }
    destruct (C34_feasible _ _ _ _ _ _ _ _ qtrunc_mono (fun k => conj (PP k) (proj2 (UR k))) R I) as [F1 [F2 [F3 F4]]].
    destruct (C34_positive _ _ _ _ _ _ _ _ R I) as [P1 [P2 [P3 P4]]].
    split; [|split; [split; assumption|split; [assumption|split; [|split]]]].
    + apply In_nth_error in I. destruct I as [k N].
      assert (E : t_period t = t_period (task_of qtrunc (draws k))).
      { destruct (C34_in_order _ _ _ _ _ _ _ _ _ R N) as [->|[SQ [_ [E1 _]]]]; [reflexivity|assumption]. }
      rewrite E, task_of_scaled. cbn [t_period]. destruct (PR k) as [z [-> Z]]. unfold scaled. rewrite TR. lia.
    + apply F2. intros k. destruct (D k) as [_ [_ [r [RU ->]]]]. cbn [NAMED_DEADLINES In] in ID.
      destruct ID as [E|[E|[E|[]]]]; inv E; [apply CP| |].
      * apply C34_slack; try assumption; try lra. apply CP.
      * apply C34_slack; try assumption; try lra. apply CP.
    + intros ->. apply F4. intros k. destruct (D k) as [_ [_ [r [RU ->]]]]. cbn [NAMED_DEADLINES In] in ID.
      destruct ID as [E|[E|[E|[]]]]; inv E. reflexivity.
    + intros ->. apply F3. intros k. destruct (D k) as [_ [_ [r [RU ->]]]]. cbn [NAMED_DEADLINES In] in ID.
      destruct ID as [E|[E|[E|[]]]]; inv E. apply C34_slack; try assumption; try lra. apply CP.
Qed.
Print Assumptions C34_named.

Example C34_named_case : named_draw (uniform_int 3 33) (uniform (1 # 10) (4 # 10)) (uniform_slack 0 1)
  (Draw (inject_Z 18) ((1 # 10) + ((4 # 10) - (1 # 10)) * (1 # 2)) (uniform_slack 0 1 (1 # 2))).
Proof.
  assert (U : unit_draw (1 # 2)) by (unfold unit_draw; lra). split; [|split].
  - exists [1 # 2]. split; [constructor; [assumption|constructor]|reflexivity].
  - exists [1 # 2]. split; [constructor; [assumption|constructor]|reflexivity].
  - exists (1 # 2). split; [assumption|reflexivity].
Qed.

(** ** Utilizations with a fixed sum *)

(** StaffordRandFixedSum returns n numbers between zero and one whose sum is
    the requested utilization, for all random numbers in (0, 1], if that
    utilization is less than the number of tasks. *)
Theorem C34_fixed_sum : forall n u tiny huge rt sx perm, (1 <= n)%nat -> 0 <= u -> u < inject_Z (Z.of_nat n) ->
  (forall k, 0 < rt k /\ rt k <= 1) -> (forall k, 0 <= sx k /\ sx k <= 1) -> Permutation perm (seq 0 n) ->
  exists xs, rand_fixed_sum n u tiny huge rt sx perm = Some xs /\ List.length xs = n /\ (forall x, In x xs -> 0 <= x /\ x <= 1) /\ total xs == u.
Proof.
  intros n u tiny huge rt sx perm N U0 U1 RT SX P. destruct (fixed_sum_total n u tiny huge rt sx perm N U0 U1 RT SX P) as [xs [A [B [C D]]]].
  exists xs. split; [assumption|]. split; [assumption|]. split; [|assumption]. apply Forall_forall. assumption.
Qed.
Print Assumptions C34_fixed_sum.

Example C34_fixed_sum_case : exists xs, rand_fixed_sum 3 (3 # 2) (1 # 1000000) 1000000 (fun _ => 1 # 2) (fun _ => 1 # 2) [2; 0; 1]%nat = Some xs /\
  map Qred xs = [7 # 16; 3 # 4; 5 # 16].
Proof. eexists. split; [reflexivity|]. vm_compute. reflexivity. Qed.

(** No division by zero happens in the tables. *)
Theorem C34_fixed_sum_denominators : forall n u tiny huge r c, (r < n)%nat -> 0 < tiny -> 0 <= huge -> 0 < rfs_w n u huge r c + tiny.
Proof. intros n u tiny huge r c R T H. pose proof (w_nonneg n u huge H r c R). lra. Qed.
Print Assumptions C34_fixed_sum_denominators.

Example C34_fixed_sum_denominators_case : Qred (rfs_w 3 (3 # 2) 1000 2 2) = 250.
Proof. vm_compute. reflexivity. Qed.

(** The requested utilization must be less than the number of tasks: for equality
    (which main accepts) and above, the table is indexed out of its bounds. *)
Theorem C34_fixed_sum_full_refuted : forall n u tiny huge rt sx perm, (2 <= n)%nat -> inject_Z (Z.of_nat n) <= u ->
  rand_fixed_sum n u tiny huge rt sx perm = None.
Proof.
  intros n u tiny huge rt sx perm N U. destruct n as [|[|n]]; [lia|lia|]. unfold rand_fixed_sum.
  replace (S (S n) - 1)%nat with (S n) by lia. cbn [rfs_loop]. unfold rfs_lookup, rfs_k.
  assert (K : (Z.of_nat (S (S n)) <= Qfloor u)%Z) by (rewrite <- (Qfloor_Z (Z.of_nat (S (S n)))); apply Qfloor_resp_le; assumption).
  destruct (Z.ltb_spec (Qfloor u + 1 - 1) (Z.of_nat (S (S n)))); [lia|]. rewrite andb_false_r.
  destruct (Z.ltb_spec (Qfloor u + 1 - 1) 0); [lia|]. rewrite andb_false_r. reflexivity.
Qed.
Print Assumptions C34_fixed_sum_full_refuted.

(** The random numbers must not be zero, although numpy.random.uniform can
    return it: a utilization may be negative then. *)
Theorem C34_fixed_sum_zero_refuted : exists xs x, rand_fixed_sum 2 (1 # 2) (1 # 1000000) 1000000 (fun _ => 0) (fun _ => 1) [0; 1]%nat = Some xs /\ In x xs /\ x < 0.
Proof.
  eexists. exists (nth 1 (match rand_fixed_sum 2 (1 # 2) (1 # 1000000) 1000000 (fun _ => 0) (fun _ => 1) [0; 1]%nat with Some l => l | None => [] end) 0).
  split; [vm_compute; reflexivity|]. split; [vm_compute; right; left; reflexivity|]. vm_compute. reflexivity.
Qed.
Print Assumptions C34_fixed_sum_zero_refuted.

(** gen_taskset with integral parameters: each task has an integral period, a
    multiple of the scaled granularity (if the least period is) within the
    range (if the largest period is a multiple of the granularity), and an
    integral cost of at most the period that exceeds the drawn utilization by
    less than one time unit and never falls below it. *)
Theorem C34_emstada : forall m mx gr c x raw i xi ri, let g := match gr with None => m | Some g => g end in
  (1 <= m <= mx)%Z -> (1 <= g <= mx)%Z -> (1 <= c)%Z -> (forall y, In y x -> 0 <= y /\ y <= 1) -> ri < inject_Z (mx + g) ->
  nth_error x i = Some xi -> nth_error raw i = Some ri ->
  exists cost period, nth_error (gen_taskset (inject_Z m) (option_map inject_Z gr) (fun q => q * inject_Z c) true x raw) i = Some (plain_otask (inject_Z cost) (inject_Z period)) /\
   (0 <= cost <= period)%Z /\ (m * c <= period)%Z /\ ((g | mx)%Z -> (period <= mx * c)%Z) /\ ((g | m)%Z -> (g * c | period)%Z) /\
   xi <= inject_Z cost / inject_Z period /\ inject_Z cost / inject_Z period < xi + 1 / inject_Z period.
Proof.
  intros m mx gr c x raw i xi ri g M G C X R NX NR. rewrite <- Forall_forall in X.
  destruct (gen_taskset_nth m gr c x raw i xi ri ltac:(lia) ltac:(unfold g in G; lia) C X NX NR) as [cost [E [B [L1 L2]]]]. fold g in E, B, L1, L2.
  exists cost, (int_period m g ri * c)%Z. split; [exact E|]. split; [exact B|].
  assert (LO : (m <= int_period m g ri)%Z) by (unfold int_period; lia).
  assert (PP : 0 < inject_Z (int_period m g ri * c)) by (apply inject_pos; nia). split; [nia|]. split; [|split; [|split]].
  - intros D. destruct (int_period_range m mx g ri) as [_ H]; try lia; [assumption..|nia].
  - intros D. apply Z.mul_divide_mono_r. apply int_period_multiple. assumption.
  - apply Qle_shift_div_l; [assumption|]. lra.
  - apply Qlt_shift_div_r; [assumption|]. setoid_replace ((xi + 1 / inject_Z (int_period m g ri * c)) * inject_Z (int_period m g ri * c))
      with (xi * inject_Z (int_period m g ri * c) + 1) by (field; lra). assumption.
Qed.
Print Assumptions C34_emstada.

Example C34_emstada_case : gen_taskset 3 None ms2us true [1 # 3; 1 # 7] [10; 5] = [plain_otask (inject_Z 3000) (inject_Z 9000); plain_otask (inject_Z 429) (inject_Z 3000)].
Proof. vm_compute. reflexivity. Qed.

(** For a range whose end is not a multiple of the granularity, which is the
    least period by default, periods can exceed it; and for periods that are not
    integral, quantize_params gives up (the result is ignored) and leaves
    parameters that are not integral. *)
Theorem C34_emstada_refuted :
  (exists raw, 3 <= raw /\ raw < 10 + 3 /\ exists t, In t (gen_taskset 3 None ms2us true [1 # 2] [raw]) /\ ~ o_period t <= ms2us 10) /\
  (exists t, In t (gen_taskset (3 # 2) None (fun q => q) true [1; 1 # 2] [3 # 2; 3 # 2]) /\ ~ exists z, o_cost t == inject_Z z).
Proof.
  split.
  - exists (25 # 2). split; [lra|]. split; [lra|]. eexists. split; [left; reflexivity|]. intros H. vm_compute in H. apply H. reflexivity.
  - eexists. split; [right; left; reflexivity|]. intros [z H]. unfold Qeq in H. cbn in H. lia.
Qed.
Print Assumptions C34_emstada_refuted.
