(** Theorems for C44: the response times of edf.bound_response_times. *)
From Coq Require Import ZArith QArith List Bool Lia Lqa Permutation.
From Verif Require Import Base ModelTasks ProofTasks SpecTasks SpecUni SpecQPA SpecGlobal SpecTardiness ProofUni ProofEDF ProofGlobal
  ModelGEDF ProofGEDF ProofGEDFRta ModelBAR ModelFFDBF ModelTardiness ProofTardinessTop ModelEDF PropGEDF PropGEDFAccept PropTardiness.
Import ListNotations.
Open Scope Z_scope.

(** Every job of every legal sequence completes within its task's bound, in
    every global EDF schedule on m processors. *)
Definition gedf_responses (es : list etask) (m : nat) (bounds : list Z) : Prop :=
  length bounds = length es /\
  forall s sc, legal_edf es s -> gvalid (length es) m s sc -> gedf es m s sc ->
  forall j b, nth_error bounds (fst j) = Some b -> responds s sc j b.

Lemma gedf_gel : forall ts m s sc, gvalid (length ts) m s sc -> (gedf (map e_of ts) m s sc <-> gel (map t_deadline ts) (length ts) m s sc).
Proof.
  intros ts m s sc Hv.
  assert (E : forall j, (fst j < length ts)%nat -> due (map e_of ts) s j = prio_point (map t_deadline ts) s j).
  { intros j Hj. unfold due, prio_point. f_equal.
    rewrite (nth_indep (map e_of ts) _ (e_of dt)), map_nth by (rewrite map_length; exact Hj).
    rewrite (nth_indep (map t_deadline ts) _ (t_deadline dt)), map_nth by (rewrite map_length; exact Hj). reflexivity. }
  split; intros H t j Hj Hr Hn.
  - destruct (H t j) as [A B]; [rewrite map_length|..]; try assumption. split; [exact A|]. intros j' Hj'. specialize (B j' Hj').
    destruct (Hv t) as [_ [_ V]]. destruct (V j' Hj') as [V1 _]. rewrite !E in B by assumption. exact B.
  - rewrite map_length in Hj. destruct (H t j Hj Hr Hn) as [A B]. split; [exact A|]. intros j' Hj'. specialize (B j' Hj').
    destruct (Hv t) as [_ [_ V]]. destruct (V j' Hj') as [V1 _]. rewrite !E by assumption. exact B.
Qed.

Lemma gedf_responses_gel : forall ts m bs, gedf_responses (map e_of ts) m bs <-> length bs = length ts /\ gel_responses (map cp_of ts) (map t_deadline ts) m bs.
Proof.
  intros ts m bs. unfold gedf_responses, gel_responses. rewrite !map_length.
  assert (L : forall s, legal_edf (map e_of ts) s <-> legal_seq (map (fun cp => Promise (fst cp) (snd cp) 0) (map cp_of ts)) s).
  { intros s. unfold legal_edf. rewrite !map_map. reflexivity. }
  split; intros [Hlen H]; (split; [exact Hlen|]); intros s sc Hl Hv Hg j b.
  - intros _ Eb. apply (H s sc); [apply L; exact Hl|exact Hv|apply gedf_gel; assumption|exact Eb].
  - intros Eb. apply (H s sc); [apply L; exact Hl|exact Hv|apply gedf_gel; assumption|rewrite <- Hlen; apply nth_error_Some; congruence|exact Eb].
Qed.

Lemma wf_rt : forall ts, Forall wf_task ts -> Forall rt_task ts.
Proof. intros ts H. eapply Forall_impl; [|exact H]. intros t [A [B C]]. split; assumption. Qed.

(** Constrained deadlines.  A cost beyond the deadline is allowed if the deadline
    is implicit: such a set gets no bounds. *)
Definition bounded_input (ts : taskset) : Prop :=
  Forall wf_task ts /\ Forall constrained ts /\ Forall (fun t => feasible t \/ t_deadline t = t_period t) ts.

Lemma accepted_feasible : forall fuel ffuel bfuel dfuel pfuel m ts step th wr wf, bounded_input ts ->
  full_test fuel ffuel bfuel dfuel pfuel m ts step th wr wf = Some true -> feasible_set ts.
Proof.
  intros fuel ffuel bfuel dfuel pfuel m ts step th wr wf [Hw [Hc Hf]] H. split; [assumption|]. split; [assumption|].
  unfold full_test, is_schedulable_py in H.
  destruct (forallb (fun t => t_cost t <=? t_period t) ts) eqn:E; [|cbn [negb] in H; rewrite orb_true_r in H; discriminate].
  rewrite forallb_forall in E. rewrite Forall_forall in *. intros t Ht. specialize (E t Ht). destruct (Hf t Ht) as [|X]; [assumption|]. unfold feasible. lia.
Qed.

(** The recorded response times are safe. *)
Theorem C44_safe : forall fuel ffuel bfuel dfuel pfuel (m : nat) ts step th wr wf bs, (1 <= m)%nat -> bounded_input ts ->
  edf_bound_response_times fuel ffuel bfuel dfuel pfuel (Z.of_nat m) ts step th wr wf = Some (EdfTrue bs) ->
  gedf_responses (map e_of ts) m bs.
Proof.
  intros fuel ffuel bfuel dfuel pfuel m ts step th wr wf bs Hm Hin H. unfold edf_bound_response_times in H.
  destruct (full_test _ _ _ _ _ _ _ _ _ _ _) as [[|]|] eqn:F; [| |discriminate].
  - pose proof (accepted_feasible _ _ _ _ _ _ _ _ _ _ _ Hin F) as Hfs.
    destruct (rta_bounds _ _ _ _ _ _) as [[rs|]|] eqn:R; [| |discriminate]; injection H as <-.
    + destruct (C18_rta_bounds_sound _ _ _ _ _ _ _ Hm Hfs R) as [L [_ S]]. split; [rewrite map_length; exact L|].
      intros s sc Hl Hv Hg j b Eb. assert (Hj : (fst j < length ts)%nat) by (rewrite <- L; apply nth_error_Some; congruence).
      rewrite <- (nth_error_nth rs (fst j) 0 Eb). apply S; assumption.
    + split; [rewrite !map_length; reflexivity|]. intros s sc Hl Hv Hg j b Eb.
      pose proof (C19_accept_sound _ _ _ _ _ _ _ _ _ _ _ Hfs F) as S.
      destruct (nth_error ts (fst j)) as [t|] eqn:Et; [|apply nth_error_None in Et; rewrite <- (map_length t_deadline) in Et; apply nth_error_None in Et; congruence].
      rewrite (map_nth_error t_deadline _ _ Et) in Eb. injection Eb as <-.
      apply (S s sc Hl Hv Hg j (e_of t)). apply map_nth_error. exact Et.
  - apply gedf_responses_gel. apply C43_da_safe; [exact Hm|apply wf_rt; apply Hin|].
    destruct (da_bound_response_times _ _ _); try discriminate. congruence.
Qed.
Print Assumptions C44_safe.

(** If the set passes the schedulability test, the recorded response times are
    within the deadlines. *)
Theorem C44_no_tardiness : forall fuel ffuel bfuel dfuel pfuel (m : nat) ts step th wr wf, (1 <= m)%nat -> bounded_input ts ->
  full_test fuel ffuel bfuel dfuel pfuel (Z.of_nat m) ts (match step with Some x => x | None => 1 end) th wr wf = Some true ->
  forall r, edf_bound_response_times fuel ffuel bfuel dfuel pfuel (Z.of_nat m) ts step th wr wf = Some r ->
  exists bs, r = EdfTrue bs /\ Forall2 (fun t b => t_cost t <= b <= t_deadline t) ts bs.
Proof.
  intros fuel ffuel bfuel dfuel pfuel m ts step th wr wf Hm Hin F r H. unfold edf_bound_response_times in H. rewrite F in H.
  pose proof (accepted_feasible _ _ _ _ _ _ _ _ _ _ _ Hin F) as Hfs.
  destruct (rta_bounds _ _ _ _ _ _) as [[rs|]|] eqn:R; [| |discriminate]; injection H as <-; eexists; (split; [reflexivity|]).
  - destruct (C18_rta_bounds_sound _ _ _ _ _ _ _ Hm Hfs R) as [L [S _]]. clear - L S. revert rs L S. induction ts as [|t ts IH]; intros [|r rs] L S; try discriminate; constructor.
    + apply (S 0%nat). cbn. lia.
    + apply IH; [cbn in L; lia|]. intros k Hk. apply (S (Datatypes.S k)). cbn. lia.
  - destruct Hfs as [_ [_ Hf]]. clear - Hf. induction Hf; constructor; [unfold feasible in *; lia|assumption].
Qed.
Print Assumptions C44_no_tardiness.

(** For implicit deadlines, bounds are found exactly if there are any; in
    particular False means that no bounds exist. *)
Theorem C44_exact : forall fuel ffuel bfuel dfuel pfuel (m : nat) ts step th wr wf r, (1 <= m)%nat -> Forall wf_task ts -> Forall (fun t => t_deadline t = t_period t) ts ->
  edf_bound_response_times fuel ffuel bfuel dfuel pfuel (Z.of_nat m) ts step th wr wf = Some r ->
  (exists bs, r = EdfTrue bs) /\ (exists bs, gedf_responses (map e_of ts) m bs) \/
  r = EdfFalse /\ ~ exists bs, gedf_responses (map e_of ts) m bs.
Proof.
  intros fuel ffuel bfuel dfuel pfuel m ts step th wr wf r Hm Hw Hi H.
  assert (Hin : bounded_input ts).
  { split; [assumption|]. rewrite Forall_forall in Hi. split; apply Forall_forall; intros t Ht; specialize (Hi t Ht); [unfold constrained; lia|right; assumption]. }
  assert (I : forallb implicit_deadline ts = true).
  { apply forallb_forall. intros t Ht. rewrite Forall_forall in Hi. specialize (Hi t Ht). unfold implicit_deadline. lia. }
  destruct r as [bs| |].
  - left. split; [eauto|]. exists bs. eapply C44_safe; eassumption.
  - right. split; [reflexivity|]. intros [bs B]. apply gedf_responses_gel in B.
    assert (Hb : has_bounded_tardiness (Z.of_nat m) ts = true) by (apply (C38_bounded_exact m ts (map t_deadline ts) Hm (wf_rt _ Hw) (map_length _ _)); eauto).
    unfold edf_bound_response_times in H. destruct (full_test _ _ _ _ _ _ _ _ _ _ _) as [[|]|]; [| |discriminate].
    + destruct (rta_bounds _ _ _ _ _ _) as [[rs|]|]; discriminate.
    + unfold da_bound_response_times in H. rewrite I in H. cbn [negb] in H. destruct (task_tardiness_bound (Z.of_nat m) ts true) eqn:E; [discriminate|].
      apply (C43_da_total _ _ _ (wf_rt _ Hw)) in E. congruence.
  - exfalso. unfold edf_bound_response_times, da_bound_response_times in H. rewrite I in H. cbn [negb] in H.
    destruct (full_test _ _ _ _ _ _ _ _ _ _ _) as [[|]|]; [| |discriminate].
    + destruct (rta_bounds _ _ _ _ _ _) as [[rs|]|]; discriminate.
    + destruct (task_tardiness_bound _ _ _); discriminate.
Qed.
Print Assumptions C44_exact.

(** With other deadlines, a set that fails the schedulability test ends in an
    AssertionError; False is never returned. *)
Theorem C44_assertion : forall fuel ffuel bfuel dfuel pfuel m ts step th wr wf r, (exists t, In t ts /\ t_deadline t <> t_period t) ->
  edf_bound_response_times fuel ffuel bfuel dfuel pfuel m ts step th wr wf = Some r ->
  match full_test fuel ffuel bfuel dfuel pfuel m ts (match step with Some x => x | None => 1 end) th wr wf with
  | Some true => exists bs, r = EdfTrue bs
  | _ => r = EdfAssert
  end.
Proof.
  intros fuel ffuel bfuel dfuel pfuel m ts step th wr wf r [t [Ht Hd]] H. unfold edf_bound_response_times in H.
  destruct (full_test _ _ _ _ _ _ _ _ _ _ _) as [[|]|]; [| |discriminate].
  - destruct (rta_bounds _ _ _ _ _ _) as [[rs|]|]; [| |discriminate]; injection H as <-; eauto.
  - unfold da_bound_response_times in H. destruct (forallb implicit_deadline ts) eqn:E; [|cbn [negb] in H; congruence].
    rewrite forallb_forall in E. specialize (E t Ht). unfold implicit_deadline in E. lia.
Qed.
Print Assumptions C44_assertion.

Theorem C44_terminates : forall m ts step th wr wf, 1 <= m -> feasible_set ts -> (ts = [] \/ exists t, In t ts /\ 0 < t_cost t) ->
  exists N, forall fuel ffuel bfuel dfuel pfuel, (N <= fuel)%nat -> (N <= ffuel)%nat -> (N <= bfuel)%nat -> (N <= dfuel)%nat -> (N <= pfuel)%nat ->
  edf_bound_response_times fuel ffuel bfuel dfuel pfuel m ts step th wr wf <> None.
Proof.
  intros m ts step th wr wf Hm Hfs Hpos.
  destruct (C19_accept_terminates m ts (match step with Some x => x | None => 1 end) th wr wf Hfs Hpos) as [N1 H1].
  assert (L25 : 1 <= 25 \/ match step with Some x => x | None => 0 end <= 1) by lia.
  destruct (C18_rta_terminates m ts 25 _ Hm Hfs L25) as [N2 H2]. exists (N1 + N2)%nat. intros fuel ffuel bfuel dfuel pfuel A1 A2 A3 A4 A5.
  specialize (H1 fuel ffuel bfuel dfuel pfuel ltac:(lia) ltac:(lia) ltac:(lia) ltac:(lia) ltac:(lia)). specialize (H2 fuel ffuel ltac:(lia) ltac:(lia)).
  unfold edf_bound_response_times, rta_bounds. destruct (full_test _ _ _ _ _ _ _ _ _ _ _) as [[|]|]; [| |congruence].
  - destruct (rta_test _ _ _ _ _ _) as [[[|] sl]|]; [discriminate|discriminate|congruence].
  - destruct (da_bound_response_times _ _ _); discriminate.
Qed.
Print Assumptions C44_terminates.

(** The four outcomes: bounds from RTA; from the deadlines, since only BAR accepts;
    from the tardiness analysis; none. *)
Example C44_example :
  edf_bound_response_times 26 60 100 60 60 2 [Task 1 3 3; Task 2 6 6; Task 1 4 4] None (TLimit 3000) true false = Some (EdfTrue [2; 4; 2]) /\
  edf_bound_response_times 26 60 100 60 60 2 ex_bar None (TLimit 3000) true false = Some (EdfTrue (map t_deadline ex_bar)) /\
  edf_bound_response_times 26 60 100 60 60 2 [Task 2 3 3; Task 2 3 3; Task 2 3 3] None (TLimit 3000) true false = Some (EdfTrue [5; 5; 5]) /\
  edf_bound_response_times 26 60 100 60 60 2 [Task 2 3 3; Task 2 3 3; Task 3 4 4] None (TLimit 3000) true false = Some EdfFalse /\
  edf_bound_response_times 26 60 100 60 60 2 [Task 2 4 2; Task 2 4 2; Task 2 4 2] None (TLimit 3000) true false = Some EdfAssert.
Proof. repeat split; vm_compute; reflexivity. Qed.

(** Deadlines beyond the period: bounds that do not hold are recorded. *)
Theorem C44_arbitrary_refuted : exists (m : nat) ts bs, (2 <= m)%nat /\ Forall wf_task ts /\ Forall feasible ts /\
  edf_bound_response_times 26 60 100 60 60 (Z.of_nat m) ts None (TLimit 3000) true false = Some (EdfTrue bs) /\
  ~ gedf_responses (map e_of ts) m bs.
Proof.
  exists 2%nat, [Task 1 10 1; Task 1 10 1; Task 1 10 1; Task 1 2 1000], [1; 1; 1; 1000]. split; [lia|]. split; [all_lia|]. split; [all_lia|].
  split; [vm_compute; reflexivity|]. intros [_ H].
  apply (burst_misses [Task 1 10 1; Task 1 10 1; Task 1 10 1; Task 1 2 1000] 2 [0; 1; 2]%nat); [all_lia| |cbn; lia| |].
  - repeat constructor; cbn; intuition discriminate.
  - intros i Hi. cbn in Hi. destruct Hi as [<-|[<-|[<-|[]]]]; cbn; auto with arith; (split; [lia|]; split; reflexivity).
  - intros s sc Hl Hv Hg j e He. apply (H s sc Hl Hv Hg). destruct (fst j) as [|[|[|[|i]]]]; cbn in He |- *; try (injection He as <-; reflexivity). destruct i; discriminate.
Qed.
Print Assumptions C44_arbitrary_refuted.
