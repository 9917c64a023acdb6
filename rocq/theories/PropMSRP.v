(** C60: the classic MSRP analysis for partitioned EDF. *)
From Coq Require Import NArith ZArith QArith List Bool Lia Arith Sorted.
From Verif Require Import ModelNative ModelQPA ModelLocking ModelMSRP SpecLocking SpecSpinFP SpecSpinEDF ProofSpinTable ProofEDFTable ProofMSRP ProofMSRPTest ProofSpinEDFMeet.
Import ListNotations.
Open Scope Z_scope.

(** ** Example: two processors, resource 0 is global, resource 1 is local *)
Definition ex_info : list taskinfo :=
  [TI 0 0 20 10 10 0 2 [Req 1 1 1 false]; TI 1 1 40 30 30 0 5 [Req 0 1 2 false; Req 1 1 2 false]; TI 2 1 40 30 30 1 6 [Req 0 2 3 false]].
Ltac in3 := match goal with H : In _ ex_info |- _ => destruct H as [<-|[<-|[<-|[]]]] end.
Example ex_ok : msrp_ok ex_info 2.
Proof.
  constructor.
  - split; [reflexivity|]. intros t H. in3; (split; [reflexivity|]); cbn; repeat constructor; cbn; intros X; decompose [or] X; first [discriminate|contradiction].
  - intros t H. in3; cbn; lia.
  - intros t H. in3; reflexivity.
  - intros t H. in3; discriminate.
  - intros t H. in3; split; discriminate.
  - intros t q H Q. in3; cbn in Q; decompose [or] Q; subst; try contradiction; split; discriminate.
  - intros t u H H'. in3; in3; cbn; intros; first [reflexivity|discriminate].
Qed.
Example ex_accepted : pedf_msrp_classic_is_schedulable 50 ex_info 2 = Some true.
Proof. vm_compute. reflexivity. Qed.

(** Task 1 spins for two units; task 0 arrives while task 1 holds the local
    resource and waits for it. *)
Definition ex_table : table := Table 16 40 [[(6, 9)]; [(0, 7)]; [(0, 8)]]
  [[CReq 2 0 1 0 0 3; CReq 1 0 0 1 3 5; CReq 2 0 1 3 5 8]; [CReq 1 0 0 5 5 7; CReq 0 0 0 8 8 9]]
  [repeat (Some (1%nat, 0%nat)) 7 ++ repeat (Some (0%nat, 0%nat)) 2; repeat (Some (2%nat, 0%nat)) 8].
Example ex_execution : edf_execution ex_info (table_exec ex_table) (edf_before ex_info (table_exec ex_table)).
Proof. apply table_edf_sound. vm_compute. reflexivity. Qed.

(** ** The verdict *)

(** An accepted task set meets all deadlines, in every schedule. *)
Theorem C60_msrp_edf_safe info n fuel E before : msrp_ok info n -> pedf_msrp_classic_is_schedulable fuel info n = Some true ->
  edf_execution info E before -> all_meet info E.
Proof. intros OK V X. apply (criterion_meets info E before n X OK). apply (msrp_verdict info n fuel true OK V). reflexivity. Qed.
Print Assumptions C60_msrp_edf_safe.
Example ex_safe : all_meet ex_info (table_exec ex_table).
Proof. exact (C60_msrp_edf_safe _ _ _ _ _ ex_ok ex_accepted ex_execution). Qed.

(** The test ends, and accepts exactly the task sets that satisfy the criterion for every interval length. *)
Theorem C60_msrp_exact info n : msrp_ok info n ->
  exists N, forall fuel, (N <= fuel)%nat -> exists b, pedf_msrp_classic_is_schedulable fuel info n = Some b /\ (b = true <-> forall c, msrp_criterion info n c).
Proof. apply msrp_exact. Qed.
Print Assumptions C60_msrp_exact.
(** a rejected task set: task 0 may wait for five units on arrival *)
Definition bad_info : list taskinfo := [TI 0 0 20 10 10 0 8 []; TI 1 1 100 100 100 0 5 [Req 0 1 5 false]; TI 2 1 100 100 100 1 1 [Req 0 1 1 false]].
Example bad_rejected : pedf_msrp_classic_is_schedulable 200 bad_info 2 = Some false.
Proof. vm_compute. reflexivity. Qed.

(** ** Preemption levels *)

Lemma insert_in x l y : In y (insert_dl x l) <-> y = x \/ In y l.
Proof.
  induction l as [|z l IH]; cbn; [intuition|]. destruct (Z.eqb_spec x z) as [->|N]; [cbn; intuition|]. destruct (x <? z); cbn; [intuition|]. rewrite IH. intuition.
Qed.
Lemma insert_sorted x l : StronglySorted Z.lt l -> StronglySorted Z.lt (insert_dl x l).
Proof.
  induction l as [|z l IH]; intros S; [cbn; constructor; constructor|]. cbn. destruct (Z.eqb_spec x z) as [->|N]; [exact S|]. inversion S as [|? ? S' F]; subst. rewrite Forall_forall in F. destruct (Z.ltb_spec x z) as [L|L].
  - constructor; [exact S|]. rewrite Forall_forall. intros y [<-|Y]; [exact L|]. specialize (F y Y). lia.
  - constructor; [apply IH, S'|]. rewrite Forall_forall. intros y Y. apply insert_in in Y. destruct Y as [->|Y]; [lia|apply F, Y].
Qed.
Lemma levels_sorted ds : forall l, StronglySorted Z.lt l -> StronglySorted Z.lt (fold_left (fun l d => insert_dl d l) ds l) /\ forall y, In y (fold_left (fun l d => insert_dl d l) ds l) <-> In y l \/ In y ds.
Proof.
  induction ds as [|d ds IH]; intros l S; cbn [fold_left]; [split; [exact S|cbn; intuition]|]. destruct (IH _ (insert_sorted d l S)) as [A B]. split; [exact A|]. intros y. rewrite B, insert_in. cbn. intuition.
Qed.
Lemma level_lt l : StronglySorted Z.lt l -> forall a b, In a l -> In b l -> (a < b <-> (level_of a l < level_of b l)%N).
Proof.
  induction 1 as [|z l S IH F]; intros a b A B; [destruct A|]. rewrite Forall_forall in F. cbn [level_of]. destruct (Z.eqb_spec z a) as [EA|NA], (Z.eqb_spec z b) as [EB|NB]; subst.
  - lia.
  - destruct B as [B|B]; [contradiction|]. specialize (F b B). lia.
  - destruct A as [A|A]; [contradiction|]. specialize (F a A). lia.
  - destruct A as [A|A]; [contradiction|]. destruct B as [B|B]; [contradiction|]. rewrite (IH a b A B). lia.
Qed.

(** The levels order the tasks as their deadlines do, and are consecutive from 0. *)
Theorem C60_levels ds : length (assign_edf_preemption_levels ds) = length ds /\
  (forall i j di dj li lj, nth_error ds i = Some di -> nth_error ds j = Some dj ->
    nth_error (assign_edf_preemption_levels ds) i = Some li -> nth_error (assign_edf_preemption_levels ds) j = Some lj -> (di < dj <-> (li < lj)%N)) /\
  (forall l, In l (assign_edf_preemption_levels ds) -> forall k, (k < l)%N -> In k (assign_edf_preemption_levels ds)).
Proof.
  unfold assign_edf_preemption_levels. set (all := fold_left (fun l d => insert_dl d l) ds []). destruct (levels_sorted ds [] (SSorted_nil _)) as [S I]. fold all in S, I.
  assert (M : forall d, In d ds <-> In d all) by (intros d; rewrite I; cbn; intuition).
  split; [apply map_length|]. split.
  - intros i j di dj li lj A B A' B'. rewrite (map_nth_error _ _ _ A) in A'. rewrite (map_nth_error _ _ _ B) in B'. injection A' as <-. injection B' as <-. apply (level_lt all S); apply M; eapply nth_error_In; eauto.
  - intros l L k K. apply in_map_iff in L. destruct L as [d [<- D]]. apply M in D.
    assert (X : exists y, In y all /\ level_of y all = k).
    { clear -K D S. revert d k D K. induction S as [|z l S IH F]; intros d k D K; [destruct D|]. rewrite Forall_forall in F. cbn [level_of] in K. destruct (Z.eqb_spec z d) as [E|N]; [lia|]. destruct D as [D|D]; [contradiction|].
      destruct (N.eq_dec k 0) as [->|K0]; [exists z; split; [left; reflexivity|cbn; rewrite Z.eqb_refl; reflexivity]|]. destruct (IH d (k - 1)%N D ltac:(lia)) as [y [Y L]].
      exists y. split; [right; exact Y|]. cbn [level_of]. destruct (Z.eqb_spec z y) as [E|NE]; [specialize (F y Y); lia|]. lia. }
    destruct X as [y [Y <-]]. apply in_map_iff. exists y. split; [reflexivity|apply M; exact Y].
Qed.
Print Assumptions C60_levels.
Example levels_ex : assign_edf_preemption_levels [30; 10; 20; 10] = [2; 0; 1; 0]%N.
Proof. reflexivity. Qed.

(** Hence task sets whose levels come from it satisfy the condition of the test. *)
Theorem C60_levels_ok info : map ti_prio info = assign_edf_preemption_levels (map (fun t => Z.of_N (ti_deadline t)) info) -> levels_follow_deadlines info.
Proof.
  intros H t u T U L. destruct (In_nth_error _ _ T) as [i I]. destruct (In_nth_error _ _ U) as [j J]. destruct (C60_levels (map (fun t => Z.of_N (ti_deadline t)) info)) as [_ [O _]].
  apply (O i j (Z.of_N (ti_deadline t)) (Z.of_N (ti_deadline u)) (ti_prio t) (ti_prio u)); [apply (map_nth_error (fun t => Z.of_N (ti_deadline t))); exact I|apply (map_nth_error (fun t => Z.of_N (ti_deadline t))); exact J|rewrite <- H; apply map_nth_error; exact I|rewrite <- H; apply map_nth_error; exact J|lia].
Qed.
Print Assumptions C60_levels_ok.
Example levels_ok_ex : map ti_prio ex_info = assign_edf_preemption_levels (map (fun t => Z.of_N (ti_deadline t)) ex_info).
Proof. reflexivity. Qed.

(** ** What the test relies on *)

(** Task 1 holds the global resource when task 0 arrives, and task 0 misses its deadline. *)
Definition bad_table : table := Table 14 100 [[(1, 13)]; [(0, 5)]; [(5, 6)]]
  [[CReq 1 0 0 0 0 5; CReq 2 0 1 5 5 6]]
  [repeat (Some (1%nat, 0%nat)) 5 ++ repeat (Some (0%nat, 0%nat)) 8; repeat None 5 ++ [Some (2%nat, 0%nat)]].

(** With levels that do not follow the deadlines the test accepts the task set. *)
Definition swapped_info : list taskinfo := [TI 0 1 20 10 10 0 8 []; TI 1 0 100 100 100 0 5 [Req 0 1 5 false]; TI 2 1 100 100 100 1 1 [Req 0 1 1 false]].
Theorem C60_levels_unsafe : exists info n fuel E before, pedf_msrp_classic_is_schedulable fuel info n = Some true /\
  (forall t, In t info -> (ti_cluster t < n)%nat) /\ edf_execution info E before /\ ~ all_meet info E.
Proof.
  exists swapped_info, 2%nat, 200%nat, (table_exec bad_table), (edf_before swapped_info (table_exec bad_table)).
  split; [vm_compute; reflexivity|]. split; [intros t [<-|[<-|[<-|[]]]]; cbn; lia|]. split; [apply table_edf_sound; vm_compute; reflexivity|].
  intros H. specialize (H 0%nat 0%nat _ eq_refl). vm_compute in H. apply H. reflexivity.
Qed.
Print Assumptions C60_levels_unsafe.

(** Also if the number of processors given to the test does not cover all tasks. *)
Theorem C60_processors_unsafe : exists info n fuel E before, pedf_msrp_classic_is_schedulable fuel info n = Some true /\
  levels_follow_deadlines info /\ edf_execution info E before /\ ~ all_meet info E.
Proof.
  exists bad_info, 0%nat, 200%nat, (table_exec bad_table), (edf_before bad_info (table_exec bad_table)).
  split; [vm_compute; reflexivity|]. split; [intros t u [<-|[<-|[<-|[]]]] [<-|[<-|[<-|[]]]]; cbn; intros; first [reflexivity|discriminate]|]. split; [apply table_edf_sound; vm_compute; reflexivity|].
  intros H. specialize (H 0%nat 0%nat _ eq_refl). vm_compute in H. apply H. reflexivity.
Qed.
Print Assumptions C60_processors_unsafe.
