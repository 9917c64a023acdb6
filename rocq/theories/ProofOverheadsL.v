(** Lemmas for C25: locking.py. *)
From Coq Require Import ZArith QArith Qround Lqa List Bool Lia.
From Verif Require Import Base ModelTasks ModelOverheads SpecOverheads ProofPwl ProofOverheads.
Import ListNotations.
Open Scope Q_scope.

(** a length that is raised by [d] and made integral if the resource is accessed at all *)
Definition raised (count : Z) (d l l' : Q) : Prop := if (count =? 0)%Z then l' = l else rounded_up 1 (l + d) l'.

Lemma ceil_rounded : forall x, rounded_up 1 x (inject_Z (Qceiling x)).
Proof. intros x. pose proof (ceil_bounds x) as [A B]. split; [eexists; symmetry; apply Qmult_1_r|]. split; assumption. Qed.

Definition spin_charged (rcost wcost : Q) (r r' : request) : Prop :=
  r_reads r' = r_reads r /\ r_writes r' = r_writes r /\ r_write_length_local r' = r_write_length_local r /\
  raised (r_reads r) rcost (r_read_length r) (r_read_length r') /\ raised (r_writes r) wcost (r_write_length r) (r_write_length r').
Definition spin_cost (rcost wcost scost : Q) (r : request) : Q :=
  inject_Z (r_reads r) * (rcost + scost) + inject_Z (r_writes r) * (wcost + scost).

Lemma spin_request_spec : forall rc wc sc r, spin_charged rc wc r (fst (spin_request rc wc sc r)) /\ snd (spin_request rc wc sc r) == spin_cost rc wc sc r.
Proof.
  intros rc wc sc r. unfold spin_request, spin_charged, raised, spin_cost.
  destruct (Z.eqb_spec (r_reads r) 0) as [R|R], (Z.eqb_spec (r_writes r) 0) as [W|W]; cbn [negb fst snd r_reads r_writes r_read_length r_write_length r_write_length_local];
    (split; [split; [reflexivity|]; split; [reflexivity|]; split; [reflexivity|]; split; try reflexivity; apply ceil_rounded|]); rewrite inject_Z_plus.
  - rewrite R, W. change (inject_Z 0) with 0. ring.
  - rewrite R. change (inject_Z 0) with 0. ring.
  - rewrite W. change (inject_Z 0) with 0. ring.
  - ring.
Qed.

Lemma finish_done : forall t rs e s t', finish_task t rs e s = Done t' ->
  rounded_up 1 e (lt_cost t' - lt_cost t) /\ rounded_up 1 s (lt_suspended t' - lt_suspended t) /\
  lt_period t' = lt_period t /\ lt_deadline t' = lt_deadline t /\ lt_reqs t' = rs /\
  (0 < lt_period t -> 0 < lt_deadline t -> fits (lt_cost t') (lt_period t') (lt_deadline t')).
Proof.
  intros t rs e s t' H. unfold finish_task in H. pose proof (check_gt_fits _ _ _ _ _ _ H) as F. apply check_gt_done in H. destruct H as [-> _].
  cbn [lt_cost lt_period lt_deadline lt_suspended lt_reqs] in *.
  assert (R : forall a x, rounded_up 1 x (a + inject_Z (Qceiling x) - a)).
  { intros a x. destruct (ceil_rounded x) as [[k K] [A B]]. split; [exists k; rewrite <- K; ring|]. split; lra. }
  split; [apply R|]. split; [apply R|]. repeat (split; [reflexivity|]). assumption.
Qed.

Lemma rounded_up_eq : forall q y y' x, y == y' -> rounded_up q y x -> rounded_up q y' x.
Proof. intros q y y' x E [A [B C]]. split; [assumption|]. split; rewrite <- E; assumption. Qed.
Lemma rounded_up_0 : forall x, rounded_up 1 0 x -> x == 0.
Proof.
  intros x [[k K] [A B]]. rewrite K in A, B. assert (X : 0 <= inject_Z k) by lra. assert (Y : inject_Z k < 1) by lra.
  change 0 with (inject_Z 0) in X. rewrite <- Zle_Qle in X. change 1 with (inject_Z 1) in Y. rewrite <- Zlt_Qlt in Y.
  assert (k = 0%Z) by lia. subst k. rewrite K. reflexivity.
Qed.

Lemma qsum_map_eq : forall A (f g : A -> Q) l, (forall a, f a == g a) -> qsum (map f l) == qsum (map g l).
Proof. intros A f g l H. induction l as [|a l IH]; [reflexivity|]. cbn [map qsum fold_right]. unfold qsum in IH. rewrite IH, (H a). reflexivity. Qed.

Lemma spin_done : forall o ts ts', charge_spinlock (Some o) ts = Done ts' ->
  let n := ntasks ts in
  let rc := read_lock o n + read_unlock o n in let wc := lock o n + unlock o n in let sc := syscall_in o n + syscall_out o n in
  Forall2 (fun t t' => rounded_up 1 (qsum (map (spin_cost rc wc sc) (lt_reqs t))) (lt_cost t' - lt_cost t) /\
    lt_suspended t' == lt_suspended t /\ lt_period t' = lt_period t /\ lt_deadline t' = lt_deadline t /\
    Forall2 (spin_charged rc wc) (lt_reqs t) (lt_reqs t') /\
    (0 < lt_period t -> 0 < lt_deadline t -> fits (lt_cost t') (lt_period t') (lt_deadline t'))) ts ts'.
Proof.
  intros o ts ts' H n rc wc sc. apply charge_all_done in H. eapply F2_impl; [|exact H]. intros t t' E. cbv beta zeta in E.
  fold n rc wc sc in E. apply finish_done in E. destruct E as [A [B [C [D [R F]]]]].
  split; [|split; [|split; [assumption|split; [assumption|split; [|assumption]]]]].
  - eapply rounded_up_eq; [|exact A]. rewrite map_map. apply qsum_map_eq. intros r. apply spin_request_spec.
  - apply rounded_up_0 in B. lra.
  - rewrite R, map_map. clear. induction (lt_reqs t) as [|r l IH]; cbn [map]; constructor; [apply spin_request_spec|assumption].
Qed.

Definition sem_charged (cs : Q) (local : option Q) (r r' : request) : Prop :=
  r_reads r = 0%Z /\ r_reads r' = 0%Z /\ r_writes r' = r_writes r /\ r_read_length r' = r_read_length r /\
  raised (r_writes r) cs (r_write_length r) (r_write_length r') /\
  match local with
  | Some l => (if (r_writes r =? 0)%Z then r_write_length_local r' = r_write_length_local r
               else exists x, r_write_length_local r' = Some x /\ rounded_up 1 (r_write_length r + l) x)
  | None => r_write_length_local r' = r_write_length_local r
  end.

Lemma sem_requests_spec : forall cs ex su local rs rs' e s, sem_requests cs ex su local rs = Some (rs', e, s) ->
  Forall2 (sem_charged cs local) rs rs' /\
  e == inject_Z (fold_right Z.add 0%Z (map r_writes rs)) * ex /\ s == inject_Z (fold_right Z.add 0%Z (map r_writes rs)) * su.
Proof.
  intros cs ex su local. induction rs as [|r rs IH]; intros rs' e s H; cbn [sem_requests] in H.
  - injection H as <- <- <-. split; [constructor|]. cbn [map fold_right]. change (inject_Z 0) with 0. split; ring.
  - destruct (Z.eqb_spec (r_reads r) 0) as [R|R]; cbn [negb] in H; [|discriminate].
    destruct (sem_requests cs ex su local rs) as [[[rest e1] s1]|]; [|discriminate]. specialize (IH _ _ _ eq_refl). destruct IH as [I1 [I2 I3]].
    cbn [map fold_right]. destruct (Z.eqb_spec (r_writes r) 0) as [W|W]; cbn [negb] in H; injection H as <- <- <-.
    + split; [constructor; [|assumption]|rewrite W; cbn [Z.add]; split; assumption]. unfold sem_charged, raised. apply Z.eqb_eq in W. rewrite W.
      repeat (split; [reflexivity || assumption|]). destruct local; reflexivity.
    + split; [constructor; [|assumption]|rewrite inject_Z_plus; split; [rewrite I2|rewrite I3]; ring].
      unfold sem_charged, raised. cbn [r_reads r_writes r_read_length r_write_length r_write_length_local].
      apply Z.eqb_neq in W. rewrite W. repeat (split; [reflexivity || assumption|]). split; [apply ceil_rounded|].
      destruct local; [eexists; split; [reflexivity|apply ceil_rounded]|reflexivity].
Qed.

Definition nwrites (t : ltask) : Q := inject_Z (fold_right Z.add 0%Z (map r_writes (lt_reqs t))).

Definition lock_charged (ex su cs : Q) (local : option Q) (t t' : ltask) : Prop :=
  rounded_up 1 (nwrites t * ex) (lt_cost t' - lt_cost t) /\ rounded_up 1 (nwrites t * su) (lt_suspended t' - lt_suspended t) /\
  lt_period t' = lt_period t /\ lt_deadline t' = lt_deadline t /\ Forall2 (sem_charged cs local) (lt_reqs t) (lt_reqs t') /\
  (0 < lt_period t -> 0 < lt_deadline t -> fits (lt_cost t') (lt_period t') (lt_deadline t')).

Lemma lock_charged_eq : forall ex ex' su su' cs local t t', ex == ex' -> su == su' -> lock_charged ex su cs local t t' -> lock_charged ex' su' cs local t t'.
Proof.
  intros ex ex' su su' cs local t t' E1 E2 [A [B C]]. split; [|split; [|exact C]]; (eapply rounded_up_eq; [|eassumption]); [rewrite E1|rewrite E2]; reflexivity.
Qed.

Definition sem_sched (o : overheads) (n : Q) : Q := schedule o n + ctx_switch o n.
Definition sem_exec (o : overheads) (susp : bool) (n : Q) : Q :=
  3 * sem_sched o n + 2 * (syscall_in o n + syscall_out o n) + lock o n + unlock o n + 2 * cache_affinity_loss o n + (if susp then 0 else ipi_latency o n).
Definition sem_cs (o : overheads) (n : Q) : Q := ipi_latency o n + sem_sched o n + syscall_out o n + syscall_in o n + unlock o n.

Lemma raised_eq : forall c d d' l l', d == d' -> raised c d l l' -> raised c d' l l'.
Proof. intros c d d' l l' E H. unfold raised in *. destruct (c =? 0)%Z; [assumption|]. eapply rounded_up_eq; [|exact H]. rewrite E. reflexivity. Qed.

Lemma semaphore_done : forall o pre susp ts ts', charge_semaphore (Some o) pre susp ts = Done ts' ->
  let n := ntasks ts in
  Forall2 (lock_charged (sem_exec o susp n) (if susp then ipi_latency o n else 0)
    (sem_cs o n + (if pre then sem_sched o n else 0)) (if pre then None else Some (sem_cs o n + sem_sched o n))) ts ts'.
Proof.
  intros o pre susp ts ts' H n. apply charge_all_done in H. eapply F2_impl; [|exact H]. intros t t' E. cbv beta zeta in E. fold n in E.
  fold (sem_sched o n) in E. fold (sem_cs o n) in E. clear H.
  destruct (sem_requests _ _ _ _ (lt_reqs t)) as [[[rs e] s]|] eqn:S in E; [|discriminate]. apply sem_requests_spec in S. destruct S as [S1 [S2 S3]].
  apply finish_done in E. destruct E as [A [B [C [D [R F]]]]]. subst rs. unfold lock_charged. fold (nwrites t) in S2, S3.
  split; [|split; [|split; [assumption|split; [assumption|split; [|assumption]]]]].
  - eapply rounded_up_eq; [|exact A]. rewrite S2. unfold sem_exec. destruct susp; ring.
  - eapply rounded_up_eq; [|exact B]. destruct susp; [rewrite S3; reflexivity|ring].
  - destruct pre; [assumption|]. eapply F2_impl; [|exact S1]. intros r r' [X1 [X2 [X3 [X4 [X5 X6]]]]].
    repeat (split; [assumption|]). split; [|assumption]. eapply raised_eq; [|exact X5]. ring.
Qed.

Definition dpcp_cs (o : overheads) (n : Q) : Q := 3 * sem_sched o n + syscall_in o n + syscall_out o n + lock o n + unlock o n.
Definition dpcp_exec (o : overheads) (n : Q) : Q := syscall_in o n + syscall_out o n + 2 * sem_sched o n + 2 * cache_affinity_loss o n.

Lemma dpcp_done : forall o ts ts', charge_dpcp (Some o) ts = Done ts' ->
  let n := ntasks ts in Forall2 (lock_charged (dpcp_exec o n) (2 * ipi_latency o n + dpcp_cs o n) (dpcp_cs o n) None) ts ts'.
Proof.
  intros o ts ts' H n. apply charge_all_done in H. eapply F2_impl; [|exact H]. intros t t' E. cbv beta zeta in E. fold n in E.
  fold (sem_sched o n) in E. fold (dpcp_cs o n) in E. fold (dpcp_exec o n) in E. clear H.
  destruct (sem_requests _ _ _ _ (lt_reqs t)) as [[[rs e] s]|] eqn:S in E; [|discriminate]. apply sem_requests_spec in S. destruct S as [S1 [S2 S3]].
  apply finish_done in E. destruct E as [A [B [C [D [R F]]]]]. subst rs. unfold lock_charged. fold (nwrites t) in S2, S3.
  split; [eapply rounded_up_eq; [|exact A]; assumption|]. split; [eapply rounded_up_eq; [|exact B]; assumption|].
  split; [assumption|]. split; [assumption|]. split; assumption.
Qed.
