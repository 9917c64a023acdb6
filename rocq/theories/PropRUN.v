(** C24: the RUN reduction. *)
From Coq Require Import ZArith QArith Qround Lqa List Bool Lia Permutation.
From Verif Require Import Base ModelTasks ModelBinpack ModelRUN SpecRUN ProofRUN.
Import ListNotations.
Open Scope Q_scope.

(** three servers of rate 2/3 on two processors *)
Definition third (n : Z) (d : list Z) : server := Server (Qmake n 3) d [] None.
Definition three : list server := [third 2 [3%Z; 6%Z]; third 2 [3%Z]; third 2 [9%Z]].

(** the reduction terminates; the number of levels is logarithmic in the number
    of processors and in the number of servers *)
Theorem C24_terminates : forall servers, Forall original servers -> 0 < total_rate servers ->
  exists packed levels, (forall fuel, (S (Nat.log2_up (Z.to_nat (Qceiling (total_rate servers)))) <= fuel)%nat -> reduce fuel servers = Some (packed, levels)) /\
    (length levels <= S (Nat.log2_up (Z.to_nat (Qceiling (total_rate servers)))))%nat /\ (length levels <= Nat.log2_up (S (length servers)))%nat.
Proof. exact reduce_terminates. Qed.
Print Assumptions C24_terminates.

(** servers that never need to run *)
Theorem C24_idle_terminates : forall servers, Forall original servers -> total_rate servers == 0 ->
  exists packed levels, (forall fuel, (2 <= fuel)%nat -> reduce fuel servers = Some (packed, levels)) /\ length levels = 2%nat.
Proof. exact reduce_idle. Qed.
Print Assumptions C24_idle_terminates.

(** the first level is the given system, completed by at most one slack server *)
Theorem C24_slack : forall servers, exists slack, ensure_integer_rate servers = servers ++ slack /\
  (slack = [] /\ integral (total_rate servers) \/
   exists s, slack = [s] /\ clients s = [] /\ created_from s = None /\ deadlines s = [] /\ 0 < rate s < 1).
Proof. exact ensure_spec. Qed.
Print Assumptions C24_slack.

Theorem C24_slack_total : forall servers, total_rate (ensure_integer_rate servers) == inject_Z (Qceiling (total_rate servers)).
Proof. exact ensure_total. Qed.
Print Assumptions C24_slack_total.

(** levels: rates within [0,1], positive integral totals that decrease strictly,
    each level the complements of a partition of the one before, ending in unit servers *)
Theorem C24_levels : forall servers fuel packed levels, Forall original servers -> 0 < total_rate servers ->
  reduce fuel servers = Some (packed, levels) ->
  exists rest, levels = ensure_integer_rate servers :: rest /\ reduction levels packed /\
    Forall (fun l => rates_ok l /\ integral (total_rate l) /\ 0 < total_rate l) levels /\ decreasing_totals levels /\ packed <> [].
Proof. exact reduce_valid. Qed.
Print Assumptions C24_levels.

(** whatever clients the servers pick, when the final unit servers execute then
    exactly as many of the servers of the first level execute as there are processors *)
Theorem C24_running : forall servers fuel packed levels, Forall original servers -> 0 < total_rate servers ->
  reduce fuel servers = Some (packed, levels) ->
  forall cs, execs packed (repeat true (length packed)) cs -> qsum cs == inject_Z (Qceiling (total_rate servers)).
Proof.
  intros servers fuel packed levels O Hp E cs Hc. destruct (reduce_valid servers fuel packed levels O Hp E) as [rest [-> [R _]]].
  rewrite (reduction_count _ _ _ R (ensure_original servers O) cs Hc). apply ensure_total.
Qed.
Print Assumptions C24_running.

(** such choices of clients exist *)
Theorem C24_executable : forall servers fuel packed levels, reduce fuel servers = Some (packed, levels) ->
  exists cs, execs packed (repeat true (length packed)) cs.
Proof. intros. apply execs_exists. Qed.
Print Assumptions C24_executable.

(** the bound on preemptions per job release: half the levels, rounded up *)
Theorem C24_preemptions : forall levels : list (list server),
  (Z.of_nat (length levels) <= 2 * max_preemptions levels <= Z.of_nat (length levels) + 1)%Z.
Proof.
  intros levels. unfold max_preemptions. set (n := Z.of_nat (length levels)).
  pose proof (Qle_ceiling (inject_Z n / 2)) as A. pose proof (Qceiling_lt (inject_Z n / 2)) as B.
  unfold Z.sub in B. rewrite inject_Z_plus in B. change (inject_Z (- (1))) with (-(1)) in B. set (c := Qceiling (inject_Z n / 2)) in *.
  assert (H : inject_Z n / 2 == inject_Z n * (1 # 2)) by (unfold Qdiv; reflexivity). rewrite H in A, B. split.
  - apply inj_le. rewrite inject_Z_mult. change (inject_Z 2) with 2. lra.
  - assert (inject_Z (2 * c) < inject_Z (n + 2)) as K by (rewrite inject_Z_mult, inject_Z_plus; change (inject_Z 2) with 2; lra). apply inj_lt in K. lia.
Qed.
Print Assumptions C24_preemptions.

(** finding: a server with a rate above one is not rejected *)
Theorem C24_overload_rejected_refuted : exists servers, Exists (fun s => 1 < rate s) servers /\ exists fuel, reduce fuel servers <> None.
Proof.
  exists [Server (3 # 2) [] [] None; Server (1 # 2) [] [] None]. split; [constructor; cbn; reflexivity|]. exists 5%nat. vm_compute. discriminate.
Qed.
Print Assumptions C24_overload_rejected_refuted.

Example C24_ex_original : Forall original three /\ total_rate three == 2.
Proof. split; [|reflexivity]. repeat constructor; cbn; discriminate. Qed.
Example C24_ex : exists packed l1 l2, reduce 3 three = Some (packed, [l1; l2]) /\ length packed = 1%nat /\ length l1 = 3%nat /\ length l2 = 3%nat /\ max_preemptions [l1; l2] = 1%Z.
Proof. eexists. eexists. eexists. split; [vm_compute; reflexivity|]. repeat split. Qed.
(** two of the three servers execute at any time *)
Example C24_ex_running : forall packed levels, reduce 3 three = Some (packed, levels) ->
  exists cs, execs packed (repeat true (length packed)) cs /\ qsum cs == 2.
Proof.
  intros packed levels E. destruct (C24_executable three 3 _ _ E) as [cs H]. exists cs. split; [exact H|].
  rewrite (C24_running three 3 _ _ (proj1 C24_ex_original) ltac:(reflexivity) E cs H). reflexivity.
Qed.
(** a system that needs slack *)
Example C24_ex_slack : exists packed levels, reduce 3 [third 1 [3%Z]; third 2 [3%Z]; third 1 [6%Z]] = Some (packed, levels) /\ length packed = 2%nat.
Proof. eexists. eexists. split; [vm_compute; reflexivity|]. reflexivity. Qed.
