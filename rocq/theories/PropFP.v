(** Property theorems C07-C10: uniprocessor fixed-priority response-time
    analysis (schedcat/sched/fp/rta.py). *)
From Coq Require Import ZArith List Bool Lia.
From Verif Require Import Base ModelTasks ModelFP SpecUni SpecFP ProofUni ProofGreedy ProofFP ProofFPExact.
Import ListNotations.
Open Scope Z_scope.

Definition plain (c p d : Z) : fptask := FPTask (Task c p d) None None None None.
Definition ex_fp : list fptask :=
  [FPTask (Task 1 4 4) None (Some 1) None (Some 1); FPTask (Task 2 9 8) None None None (Some 1); plain 2 20 19].

(** C07: every job of an analysed task completes within the recorded response
    time, in every schedule with bounded priority inversion. *)
Theorem C07_rta_sound : forall fuel no_cpus ts verdict res,
  Forall wf_task ts -> no_suspension ts -> no_legacy ts ->
  bound_response_times fuel no_cpus ts = Accepted (verdict, res) ->
  (verdict = true -> no_cpus = 1 /\ length res = length ts) /\
  forall s sc, legal_seq (map promise_of ts) s -> valid_schedule (length ts) s sc ->
    fp_policy (length ts) s sc (allowed (fun t => attr (fp_prio_inversion t)) ts) ->
  forall i t r, nth_error res i = Some (t, r) -> nth_error ts i = Some t /\
  forall k, exists q, Z.of_nat q <= Z.of_nat (arr s i k) + r /\ completed s sc (i, k) q.
Proof. exact sound_new_any. Qed.
Print Assumptions C07_rta_sound.

(** Same for task sets using the old [blocked] attribute. *)
Theorem C07_rta_legacy_sound : forall fuel no_cpus ts verdict res,
  Forall wf_task ts -> no_suspension ts -> ~ no_legacy ts ->
  bound_response_times fuel no_cpus ts = Accepted (verdict, res) ->
  (verdict = true -> no_cpus = 1 /\ length res = length ts) /\
  forall s sc, legal_seq (map promise_of ts) s -> valid_schedule (length ts) s sc ->
    fp_policy (length ts) s sc (allowed (fun t => attr (fp_blocked t)) ts) ->
  forall i t r, nth_error res i = Some (t, r) -> nth_error ts i = Some t /\
  forall k, exists q, Z.of_nat q <= Z.of_nat (arr s i k) + r /\ completed s sc (i, k) q.
Proof. exact sound_legacy_any. Qed.
Print Assumptions C07_rta_legacy_sound.

(** The hypotheses are met by a set with jitter and blocking, and by an actual
    schedule of its critical sequence. *)
Example C07_case :
  exists res, bound_response_times 50 1 ex_fp = Accepted (true, res) /\ map snd res = [3; 5; 6] /\
  Forall wf_task ex_fp /\ no_suspension ex_fp /\ no_legacy ex_fp /\
  exists s sc, legal_seq (map promise_of ex_fp) s /\ valid_schedule (length ex_fp) s sc /\
    fp_policy (length ex_fp) s sc (allowed (fun t => attr (fp_prio_inversion t)) ex_fp).
Proof.
  eexists. split; [vm_compute; reflexivity|]. split; [reflexivity|].
  assert (Hwf : Forall wf_task ex_fp) by (repeat constructor; cbv; congruence).
  split; [exact Hwf|]. split; [repeat constructor|]. split; [repeat constructor|].
  destruct (critical_schedule_exists ex_fp Hwf) as [sc [H1 H2]].
  exists (critical (map promise_of ex_fp)), sc. split; [apply critical_legal; apply ps_ok; exact Hwf|].
  split; [exact H1|]. intros j t1 t2 Hj Ht Hp. pose proof (strict_policy _ _ _ H2 j t1 t2 Hj Ht Hp) as Hlost. cbn beta in Hlost.
  unfold allowed. destruct (nth_error ex_fp (fst j)) as [x|] eqn:E; [|assumption].
  apply nth_error_In in E. rewrite Forall_forall in Hwf. destruct (Hwf x E) as [_ [_ [_ [_ [_ ?]]]]]. lia.
Qed.

Example C07_legacy_case :
  exists res, bound_response_times 50 1 [plain 1 4 4; FPTask (Task 2 9 8) (Some 2) None None None] = Accepted (true, res) /\
    map snd res = [1; 6] /\ ~ no_legacy [plain 1 4 4; FPTask (Task 2 9 8) (Some 2) None None None].
Proof.
  eexists. split; [vm_compute; reflexivity|]. split; [reflexivity|].
  intro H. inv H. inv H3. discriminate.
Qed.

(** C08: the recorded response times are attained, and a rejected task really
    misses its deadline, by the first job of a legal sequence under the
    textbook policy; such a schedule exists. *)
Theorem C08_rta_exact : forall fuel ts verdict res,
  Forall wf_task ts -> Forall (fun t => t_deadline (fp_task t) <= t_period (fp_task t)) ts ->
  no_suspension ts -> no_legacy ts -> no_inversion ts ->
  bound_response_times fuel 1 ts = Accepted (verdict, res) ->
  exists s, legal_seq (map promise_of ts) s /\
    (exists sc, valid_schedule (length ts) s sc /\ fp_strict (length ts) s sc) /\
    forall sc, valid_schedule (length ts) s sc -> fp_strict (length ts) s sc ->
    (forall i t r, nth_error res i = Some (t, r) ->
       forall q, completed s sc (i, 0%nat) q <-> Z.of_nat (arr s i 0) + r <= Z.of_nat q) /\
    (verdict = false -> exists t, nth_error ts (length res) = Some t /\
       forall q, completed s sc (length res, 0%nat) q ->
         Z.of_nat (arr s (length res) 0) + t_deadline (fp_task t) < Z.of_nat q).
Proof. exact exact_new. Qed.
Print Assumptions C08_rta_exact.

Definition ex_rej : list fptask := [plain 2 5 5; FPTask (Task 2 6 6) None (Some 3) None None; plain 3 10 9].
Example C08_case : exists res, bound_response_times 50 1 ex_rej = Accepted (false, res) /\
  map snd res = [2; 7] /\ Forall wf_task ex_rej /\ no_suspension ex_rej /\ no_legacy ex_rej /\ no_inversion ex_rej.
Proof.
  eexists. split; [vm_compute; reflexivity|]. split; [reflexivity|].
  repeat split; repeat constructor; cbv; congruence.
Qed.

(** C08, second half: the recorded value (less jitter) is the least solution of
    the recurrence, whichever of the four analyses is selected. *)
Theorem C08_rta_least_fixed_point : forall fuel own hp hpj D d t,
  Forall (fun a => 0 <= t_cost (fp_task (fst a)) /\ 1 <= t_period (fp_task (fst a)) /\ 0 <= hpj a) hp ->
  rta_loop fuel own hp hpj D d = Accepted t ->
  t = own + zsum (map (fun a => t_cost (fp_task (fst a)) * cdiv (t + hpj a) (t_period (fp_task (fst a)))) hp) /\
  forall x, d <= x ->
    own + zsum (map (fun a => t_cost (fp_task (fst a)) * cdiv (x + hpj a) (t_period (fp_task (fst a)))) hp) <= x -> t <= x.
Proof. exact loop_lfp. Qed.
Print Assumptions C08_rta_least_fixed_point.

Example C08_lfp_case : rta_loop 20 3 [(plain 2 5 5, 2); (plain 2 6 6, 4)] hp_get_jitter 30 7 = Accepted 15.
Proof. vm_compute. reflexivity. Qed.

(** C09 *)
Theorem C09_rta_terminates : forall ts no_cpus, Forall wf_task ts -> exists fuel result,
  forall fuel', (fuel <= fuel')%nat -> bound_response_times fuel' no_cpus ts = Accepted result.
Proof. exact bound_total. Qed.
Print Assumptions C09_rta_terminates.

Theorem C09_rta_sustainable : forall ts' ts fuel fuel' res,
  Forall2 easier ts' ts -> Forall wf_task ts' -> Forall wf_task ts ->
  bound_response_times fuel 1 ts = Accepted (true, res) -> (rta_fuel ts' <= fuel')%nat ->
  exists res', bound_response_times fuel' 1 ts' = Accepted (true, res') /\
    Forall2 (fun a' a => snd a' <= snd a) res' res.
Proof. exact bound_sustainable. Qed.
Print Assumptions C09_rta_sustainable.

Definition ex_susp : list fptask :=
  [FPTask (Task 2 10 9) None None (Some 3) None; FPTask (Task 3 20 20) None (Some 1) None (Some 1)].
Definition ex_susp_easier : list fptask :=
  [FPTask (Task 1 11 10) None None (Some 1) None; FPTask (Task 3 20 20) None None None (Some 1)].
Example C09_case :
  (exists res, bound_response_times 30 1 ex_susp = Accepted (true, res) /\ map snd res = [5; 7]) /\
  (exists res, bound_response_times 30 1 ex_susp_easier = Accepted (true, res) /\ map snd res = [2; 5]) /\
  Forall2 easier ex_susp_easier ex_susp /\ Forall wf_task ex_susp /\ Forall wf_task ex_susp_easier.
Proof.
  split; [eexists; split; [vm_compute; reflexivity|reflexivity]|].
  split; [eexists; split; [vm_compute; reflexivity|reflexivity]|].
  repeat split; repeat constructor; cbv; congruence.
Qed.

(** C10: holds without jitter, false in general. *)
Theorem C10_rta_within_deadline : forall fuel no_cpus ts res,
  Forall (fun t => attr (fp_jitter t) = 0) ts ->
  bound_response_times fuel no_cpus ts = Accepted (true, res) ->
  length res = length ts /\
  forall i t r, nth_error res i = Some (t, r) -> nth_error ts i = Some t /\ r <= t_deadline (fp_task t).
Proof. exact within_deadline. Qed.
Print Assumptions C10_rta_within_deadline.

Example C10_case : exists res, bound_response_times 50 1 [plain 1 4 4; plain 2 9 3] = Accepted (true, res) /\ map snd res = [1; 3].
Proof. eexists. split; [vm_compute; reflexivity|reflexivity]. Qed.

Theorem C10_rta_jitter_refuted : exists ts t r,
  Forall wf_task ts /\ no_suspension ts /\ no_legacy ts /\
  bound_response_times 10 1 ts = Accepted (true, [(t, r)]) /\ t_deadline (fp_task t) < r.
Proof.
  exact (ex_intro _ [FPTask (Task 1 1 1) None (Some 5) None None] (ex_intro _ _ (ex_intro _ _ jitter_witness))).
Qed.
Print Assumptions C10_rta_jitter_refuted.
