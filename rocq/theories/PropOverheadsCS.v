(** C25: whether critical sections still fit into the execution time of a task
    after the overheads of spin locks have been charged. *)
From Coq Require Import ZArith QArith Qround Lqa List Bool Lia.
From Verif Require Import Base ModelTasks ModelOverheads SpecOverheads ProofPwl ProofOverheads ProofOverheadsQ ProofOverheadsL PropOverheads.
Import ListNotations.
Open Scope Q_scope.

(** the execution time that a job spends in critical sections *)
Definition section_time (t : ltask) : Q :=
  qsum (map (fun r => inject_Z (r_reads r) * r_read_length r + inject_Z (r_writes r) * r_write_length r) (lt_reqs t)).

Definition whole (x : Q) : Prop := exists z, x == inject_Z z.

Lemma raised_whole c d l l' : raised c d l l' -> (c <> 0%Z -> whole (l + d)) -> inject_Z c * l' == inject_Z c * l + inject_Z c * (if (c =? 0)%Z then 0 else d).
Proof.
  unfold raised. destruct (Z.eqb_spec c 0) as [->|N]; intros H W; [subst; lra|]. destruct (W N) as [z E]. destruct H as [[k K] [A B]].
  assert (X : l' == l + d).
  { rewrite E in A, B |- *. rewrite K in A, B |- *. rewrite Qmult_1_r in A, B |- *. rewrite <- Zle_Qle in A. assert (B' : inject_Z k < inject_Z (z + 1)) by (rewrite inject_Z_plus; exact B). rewrite <- Zlt_Qlt in B'. replace k with z by lia. reflexivity. }
  rewrite X. ring.
Qed.

(** If the lengths plus the overheads are whole numbers, critical sections that
    fit into the execution time do so afterwards. *)
Theorem C25_sections_fit : forall o ts ts', nonneg_overheads o -> Forall counts_ok ts -> charge_spinlock (Some o) ts = Done ts' ->
  let n := ntasks ts in
  Forall (fun t => section_time t <= lt_cost t /\ Forall (fun r => (r_reads r <> 0%Z -> whole (r_read_length r + (read_lock o n + read_unlock o n))) /\
    (r_writes r <> 0%Z -> whole (r_write_length r + (lock o n + unlock o n)))) (lt_reqs t)) ts ->
  Forall (fun t => section_time t <= lt_cost t) ts'.
Proof.
  intros o ts ts' Ho Hc H n HF. apply C25_spinlock_charge in H. cbv zeta in H. fold n in H. destruct Ho as [_ [_ [Hn _]]]. destruct (Hn n (ntasks_nonneg _ ts)) as [N1 [N2 [N3 [N4 [N5 N6]]]]].
  clear Hn. clearbody n. revert Hc HF. induction H as [|t t' l l' [A [_ [_ [_ [R _]]]]] _ IH]; intros Hc HF; constructor.
  - inversion Hc as [|x y CO _]; subst. inversion HF as [|x y [FIT W] _]; subst. destruct A as [_ [A _]].
    set (rc := read_lock o n + read_unlock o n) in *. set (wc := lock o n + unlock o n) in *. set (sc := syscall_in o n + syscall_out o n) in *.
    assert (P : 0 <= rc /\ 0 <= wc /\ 0 <= sc) by (unfold rc, wc, sc; lra). clearbody rc wc sc.
    assert (S : section_time t' <= section_time t + qsum (map (spin_cost rc wc sc) (lt_reqs t))); [|lra].
    unfold section_time. clear - R W CO P. unfold counts_ok in CO. induction R as [|r r' rs rs' [X1 [X2 [_ [X3 X4]]]] _ IH]; [cbn; lra|].
    inversion CO as [|x y [Z1 Z2] CO']; subst. inversion W as [|x y [W1 W2] W']; subst. specialize (IH CO' W'). unfold qsum in *. cbn [map fold_right].
    rewrite X1, X2. pose proof (raised_whole _ _ _ _ X3 W1) as E1. pose proof (raised_whole _ _ _ _ X4 W2) as E2. rewrite E1, E2. assert (SC : spin_cost rc wc sc r == inject_Z (r_reads r) * (rc + sc) + inject_Z (r_writes r) * (wc + sc)) by (unfold spin_cost; ring). rewrite SC.
    apply inj_nonneg in Z1. apply inj_nonneg in Z2. set (a := inject_Z (r_reads r)) in *. set (b := inject_Z (r_writes r)) in *.
    destruct P as [P1 [P2 P3]]. pose proof (Qmult_le_0_compat a rc Z1 P1). pose proof (Qmult_le_0_compat a sc Z1 P3). pose proof (Qmult_le_0_compat b wc Z2 P2). pose proof (Qmult_le_0_compat b sc Z2 P3).
    assert (Y1 : a * (if (r_reads r =? 0)%Z then 0 else rc) <= a * (rc + sc)) by (destruct (r_reads r =? 0)%Z; lra).
    assert (Y2 : b * (if (r_writes r =? 0)%Z then 0 else wc) <= b * (wc + sc)) by (destruct (r_writes r =? 0)%Z; lra).
    set (u := if (r_reads r =? 0)%Z then 0 else rc) in *. set (v := if (r_writes r =? 0)%Z then 0 else wc) in *. clearbody u v a b. lra.
  - apply IH; [inversion Hc; assumption|inversion HF; assumption].
Qed.
Print Assumptions C25_sections_fit.

Example C25_sections_case : nonneg_overheads ex_oh /\ section_time (LTask 100 1000 1000 0 [Request 3 2 2 5 None]) == 16 /\
  exists t', charge_spinlock (Some ex_oh) [LTask 100 1000 1000 0 [Request 3 2 2 5 None]] = Done [t'] /\ section_time t' == 26 /\ lt_cost t' == 120.
Proof. split; [exact (proj1 C25_locking_case)|]. split; [vm_compute; reflexivity|]. eexists. split; [vm_compute; reflexivity|]. split; vm_compute; reflexivity. Qed.

(** In general they do not: each length is rounded up, the cost only once. *)
Theorem C25_sections_refuted : exists o ts ts', nonneg_overheads o /\ Forall counts_ok ts /\ charge_spinlock (Some o) ts = Done ts' /\
  Forall (fun t => section_time t <= lt_cost t) ts /\ exists t', In t' ts' /\ lt_cost t' < section_time t'.
Proof.
  exists (let z := fun _ => 0 in Overheads 1000 z z z z z z (fun _ => 1 # 10) z z z z z z z), [LTask 10 1000 1000 0 [Request 0 10 0 1 None]].
  eexists. split; [|split; [|split; [vm_compute; reflexivity|split]]].
  - unfold nonneg_overheads. cbn [quantum_length ipi_latency schedule release ctx_switch tick release_latency lock unlock read_lock read_unlock syscall_in syscall_out cache_affinity_loss initial_cache_load].
    split; [lra|]. split; [intros m Hm; repeat split; lra|]. split; [intros m Hm; repeat split; lra|]. intros w Hw. split; lra.
  - repeat constructor; cbn; lia.
  - repeat constructor. vm_compute. discriminate.
  - eexists. split; [left; reflexivity|]. vm_compute. reflexivity.
Qed.
Print Assumptions C25_sections_refuted.
