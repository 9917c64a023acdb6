(** C65: the classic bounds of the multiprocessor priority ceiling protocol. *)
From Coq Require Import NArith ZArith List Bool Lia Arith.
From Verif Require Import ModelLocking ModelFMLPPlus ModelMPCP SpecLocking SpecQueue SpecDPCP SpecFMLPPlus SpecMPCP ProofLocking ProofSpin ProofQueue ProofBlame ProofFMLPPlus ProofMPCP.
Import ListNotations.
Open Scope N_scope.

Lemma mpcp_result info vs i tsk : nth_error info i = Some tsk ->
  nth_error (mpcp_bounds info vs) i = Some (mpcp_task_bounds tsk (both info) (nth (ti_cluster tsk) (split_by_cluster info 0) []) vs).
Proof. intros H. unfold mpcp_bounds. cbv zeta. rewrite (map_nth_error _ _ _ H). reflexivity. Qed.

Lemma both_periods info : (forall t, In t info -> 0 < ti_period t) -> forall p, In p (concat (both info)) -> 0 < ti_period (fst p).
Proof.
  intros H p Hp. rewrite concat_both in Hp. apply in_map_iff in Hp. destruct Hp as [t [<- Ht]]. apply H. apply (Permutation.Permutation_in _ (clusters_perm info)). exact Ht.
Qed.

(** the loops of the analysis end *)
Theorem C65_terminates : forall info vs, (forall t, In t info -> 0 < ti_period t) -> forall b, In b (mpcp_bounds info vs) -> b <> None.
Proof.
  intros info vs P b Hb. unfold mpcp_bounds in Hb. cbv zeta in Hb. fold (both info) in Hb. apply in_map_iff in Hb. destruct Hb as [tsk [<- _]]. unfold mpcp_task_bounds.
  assert (G : forall qs acc, mpcp_remote_loop tsk (both info) qs acc <> None).
  { induction qs as [|q r IH]; intros acc; cbn [mpcp_remote_loop]; [discriminate|]. destruct (mpcp_request_blocking (q_res q) tsk (both info)) as [b0|] eqn:E; [|exfalso; apply (request_blocking_ends (q_res q) tsk (both info) (both_periods info P) E)].
    cbv zeta. destruct (_ =? _); [discriminate|apply IH]. }
  unfold mpcp_remote_blocking. specialize (G (ti_requests tsk) 0). destruct (mpcp_remote_loop tsk (both info) (ti_requests tsk) 0); [discriminate|congruence].
Qed.
Print Assumptions C65_terminates.

(** the vectors are long enough for the indices used *)
Theorem C65_indices_valid : forall info tsk q, In tsk info -> In q (ti_requests tsk) ->
  let clusters := split_by_cluster info 0 in
  (ti_cluster tsk < length clusters)%nat /\ (ti_cluster tsk < length (get_mpcp_ceilings info))%nat /\
  (q_res q < length (nth (ti_cluster tsk) (get_mpcp_ceilings info) []))%nat /\
  map (@length (list N)) (determine_gcs_response_times clusters (get_mpcp_ceilings info)) = map (@length taskinfo) clusters.
Proof.
  intros info tsk q H Q. cbv zeta. pose proof (cluster_lt info tsk H) as L. split; [exact L|]. split; [unfold get_mpcp_ceilings; rewrite map_length, seq_length; exact L|]. split.
  - rewrite (ceiling_row info (ti_cluster tsk) L). unfold determine_mpcp_ceilings. rewrite map_length. destruct (Nat.lt_ge_cases (q_res q) (length (split_by_resource info))) as [X|X]; [exact X|exfalso].
    assert (E := split_by_resource_nth info (q_res q)). rewrite nth_overflow in E by exact X. assert (I : In (RB tsk q) (for_resource (q_res q) (all_requests info))); [|rewrite <- E in I; destruct I].
    unfold for_resource. apply filter_In. split; [apply in_all_requests; split; assumption|]. unfold rb_res. cbn. apply Nat.eqb_refl.
  - unfold determine_gcs_response_times. rewrite map_map. apply map_ext. intros c. unfold cluster_response_times. apply map_length.
Qed.
Print Assumptions C65_indices_valid.

(** waiting for locks *)
Theorem C65_remote_safe : forall info vs rel comp sched tr i k tsk,
  wf_info info -> NoDup (map ti_prio info) -> (forall t, In t info -> ti_response t <= ti_period t) ->
  (forall t, In t info -> sporadic_jobs (ti_period t) (ti_response t) (rel (ti_id t)) (comp (ti_id t))) ->
  mpcp_execution info vs rel comp sched tr -> nth_error info i = Some tsk -> fits_uint info tsk ->
  exists b, nth_error (mpcp_bounds info vs) i = Some (Some b) /\ at_most (i_len (bb_remote b)) (suspended tr i k).
Proof.
  intros info vs rel comp sched tr i k tsk W UP RP SJ EX Hi FIT. destruct (wf_nth info i tsk W Hi) as [<- Hin]. rewrite (mpcp_result info vs _ tsk Hi).
  assert (TE := C65_terminates info vs (fun t Ht => proj1 (proj2 W t Ht)) _ (nth_error_In _ _ (mpcp_result info vs _ tsk Hi))). unfold mpcp_task_bounds in *.
  destruct (mpcp_remote_blocking tsk (both info)) as [R|] eqn:E; [|congruence]. eexists. split; [reflexivity|]. cbn [bb_remote i_len]. intros ts ND H.
  apply (remote_safe info vs rel comp sched tr W SJ EX UP RP tsk k Hin FIT R ts E ND H).
Qed.
Print Assumptions C65_remote_safe.

(** delays by local jobs of lower priority *)
Theorem C65_local_safe : forall info vs rel comp sched tr i k tsk,
  wf_info info -> NoDup (map ti_prio info) -> (forall t, In t info -> ti_response t <= ti_period t) ->
  (forall t, In t info -> sporadic_jobs (ti_period t) (ti_response t) (rel (ti_id t)) (comp (ti_id t))) ->
  mpcp_execution info vs rel comp sched tr -> nth_error info i = Some tsk -> fits_uint info tsk ->
  exists b, nth_error (mpcp_bounds info vs) i = Some (Some b) /\ at_most (i_len (bb_local b)) (delayed_by_lower info rel comp sched tr i k).
Proof.
  intros info vs rel comp sched tr i k tsk W UP RP SJ EX Hi FIT. destruct (wf_nth info i tsk W Hi) as [<- Hin]. rewrite (mpcp_result info vs _ tsk Hi).
  assert (TE := C65_terminates info vs (fun t Ht => proj1 (proj2 W t Ht)) _ (nth_error_In _ _ (mpcp_result info vs _ tsk Hi))). unfold mpcp_task_bounds in *.
  destruct (mpcp_remote_blocking tsk (both info)) as [R|] eqn:E; [|congruence]. eexists. split; [reflexivity|]. cbn [bb_local i_len]. intros ts ND H.
  apply (local_safe info vs rel comp sched tr W SJ EX RP tsk k Hin FIT ts ND H).
Qed.
Print Assumptions C65_local_safe.

(** both *)
Theorem C65_total_safe : forall info vs rel comp sched tr i k tsk,
  wf_info info -> NoDup (map ti_prio info) -> (forall t, In t info -> ti_response t <= ti_period t) ->
  (forall t, In t info -> sporadic_jobs (ti_period t) (ti_response t) (rel (ti_id t)) (comp (ti_id t))) ->
  mpcp_execution info vs rel comp sched tr -> nth_error info i = Some tsk -> fits_uint info tsk ->
  exists b, nth_error (mpcp_bounds info vs) i = Some (Some b) /\
  at_most (i_len (bb_block b)) (fun t => suspended tr i k t \/ delayed_by_lower info rel comp sched tr i k t).
Proof.
  intros info vs rel comp sched tr i k tsk W UP RP SJ EX Hi FIT. destruct (wf_nth info i tsk W Hi) as [<- Hin]. rewrite (mpcp_result info vs _ tsk Hi).
  assert (TE := C65_terminates info vs (fun t Ht => proj1 (proj2 W t Ht)) _ (nth_error_In _ _ (mpcp_result info vs _ tsk Hi))). unfold mpcp_task_bounds in *.
  destruct (mpcp_remote_blocking tsk (both info)) as [R|] eqn:E; [|congruence]. eexists. split; [reflexivity|]. cbn [bb_block i_len]. intros ts ND H.
  apply (total_safe info vs rel comp sched tr W SJ EX UP RP tsk k Hin FIT R ts E ND H).
Qed.
Print Assumptions C65_total_safe.

(** ** Finite executions: [C] lists the completion times of the jobs of a task *)
Section Finite.
Context (info : list taskinfo) (vs : bool) (R : list Z) (C : list (list Z)) (tab : list (list (option (nat * nat)))) (trl : list (list creq)).
Definition m_rel (i k : nat) : Z := (match nth_error info i with Some t => Z.of_N (ti_period t) | None => 0 end * Z.of_nat k + nth i R 0)%Z.
Definition m_comp (i k : nat) : Z := nth k (nth i C []) (m_rel i k).
Definition m_sched (p : nat) (t : Z) : option (nat * nat) :=
  if (t <? 0)%Z then None else match nth_error (nth p tab []) (Z.to_nat t) with Some x => x | None => None end.
Definition m_tr (r : nat) : list creq := nth r trl [].

Definition m_creq_eqb (a b : creq) : bool :=
  Nat.eqb (cr_task a) (cr_task b) && Nat.eqb (cr_job a) (cr_job b) && Nat.eqb (cr_cpu a) (cr_cpu b) && (cr_issue a =? cr_issue b)%Z && (cr_start a =? cr_start b)%Z && (cr_end a =? cr_end b)%Z.
Definition m_all : list (nat * creq) := concat (map (fun r => map (pair r) (m_tr r)) (seq 0 (length trl))).
Definition m_jobs : list (nat * nat) := concat (map (fun i => map (pair i) (seq 0 (length (nth i C [])))) (seq 0 (length C))).
Definition m_at (lo hi : creq -> Z) (i k : nat) (t : Z) : bool := existsb (fun rb => Nat.eqb (cr_task (snd rb)) i && Nat.eqb (cr_job (snd rb)) k && (lo (snd rb) <=? t)%Z && (t <? hi (snd rb))%Z) m_all.
Definition m_susp := m_at cr_issue cr_start.
Definition m_holds := m_at cr_start cr_end.
Definition m_pending (i k : nat) (t : Z) : bool := (m_rel i k <=? t)%Z && (t <? m_comp i k)%Z.
Definition m_ready (i k : nat) (t : Z) : bool := m_pending i k t && forallb (fun l => (m_comp i l <=? t)%Z) (seq 0 k).
Definition m_runs := runs info m_sched.
Fixpoint m_distinct (l : list creq) : bool := match l with [] => true | a :: r => negb (existsb (m_creq_eqb a) r) && m_distinct r end.
(** the ceiling of [s] on processor [c] is at least as high as that of [r] *)
Definition m_above (c r s : nat) : bool :=
  forallb (fun u => Nat.eqb (ti_cluster u) c || negb (existsb (fun q => Nat.eqb (q_res q) r) (ti_requests u)) ||
    existsb (fun v => negb (Nat.eqb (ti_cluster v) c) && existsb (fun q => Nat.eqb (q_res q) s) (ti_requests v) && (ti_prio v <=? ti_prio u)) info) info.

Definition m_check : bool :=
  forallb (fun rc => let '(r, c) := rc in
    (cr_issue c <=? cr_start c)%Z && (cr_start c <=? cr_end c)%Z && (m_rel (cr_task c) (cr_job c) <=? cr_issue c)%Z && (cr_end c <=? m_comp (cr_task c) (cr_job c))%Z &&
    match nth_error info (cr_task c) with
    | Some t => existsb (fun q => Nat.eqb (q_res q) r && (instants (m_runs r c) (cr_start c) (cr_end c) <=? Z.of_N (q_len q))%Z) (ti_requests t) &&
        forallb (fun q => negb (Nat.eqb (q_res q) r) || (N.of_nat (length (filter (is_job (cr_task c) (cr_job c)) (m_tr r))) <=? q_num q)) (ti_requests t)
    | None => false end) m_all &&
  forallb m_distinct trl &&
  forallb (fun ra => forallb (fun sb => let '(r, a) := ra in let '(s, b) := sb in
    (Nat.eqb r s && m_creq_eqb a b) ||
    ((negb (Nat.eqb (cr_task a) (cr_task b)) || (cr_end a <=? cr_issue b)%Z || (cr_end b <=? cr_issue a)%Z) &&
     (negb (Nat.eqb r s) || (cr_end a <=? cr_start b)%Z || (cr_end b <=? cr_start a)%Z) &&
     (negb (Nat.eqb r s) || negb ((cr_issue b <? cr_start a)%Z && (cr_start a <? cr_start b)%Z) || (tprio info (cr_task a) <=? tprio info (cr_task b))) &&
     (negb (Nat.eqb (tcpu info (cr_task a)) (tcpu info (cr_task b))) || negb ((cr_start a <? cr_issue b)%Z && (cr_issue b <? cr_end a)%Z)))) m_all) m_all &&
  forallb (fun p => forallb (fun n => match m_sched p (Z.of_nat n) with
    | Some (j, l) => Nat.eqb (tcpu info j) p && m_pending j l (Z.of_nat n) && negb (m_susp j l (Z.of_nat n)) | None => true end) (seq 0 (length (nth p tab [])))) (seq 0 (length tab)) &&
  forallb (fun rb => let '(r, b) := rb in forallb (fun t => existsb (fun a => (cr_start a <=? t)%Z && (t <? cr_end a)%Z) (m_tr r)) (zrange (cr_issue b) (cr_start b))) m_all &&
  forallb (fun ra => let '(r, a) := ra in forallb (fun t => existsb (fun sc => let '(s, c) := sc in
    Nat.eqb (tcpu info (cr_task c)) (tcpu info (cr_task a)) && m_runs s c t && m_above (tcpu info (cr_task a)) r s) m_all) (zrange (cr_start a) (cr_end a))) m_all &&
  forallb (fun ik => let '(i, k) := ik in match nth_error info i with
    | Some tsk => forallb (fun t => negb (m_ready i k t) || m_susp i k t || match m_sched (ti_cluster tsk) t with Some (j, l) => (tprio info j <=? ti_prio tsk) || m_holds j l t | None => false end) (zrange (m_rel i k) (m_comp i k)) &&
      forallb (fun ra => let '(r, a) := ra in
        negb (Nat.eqb (tcpu info (cr_task a)) (ti_cluster tsk)) || negb (ti_prio tsk <? tprio info (cr_task a)) || negb (m_ready i k (cr_issue a - 1)) || (negb vs && m_susp i k (cr_issue a - 1)) ||
        (cr_issue a =? m_comp i k)%Z || (negb vs && existsb (fun sb => let '(s, b) := sb in Nat.eqb (cr_task b) i && Nat.eqb (cr_job b) k && (cr_issue b =? cr_issue a)%Z && (cr_issue b <? cr_start b)%Z) m_all)) m_all
    | None => true end) m_jobs.

Lemma m_creq_eqb_eq a b : m_creq_eqb a b = true <-> a = b.
Proof.
  unfold m_creq_eqb. rewrite !andb_true_iff, !Nat.eqb_eq, !Z.eqb_eq. split; [|intros ->; tauto]. destruct a, b; cbn. intros [[[[[-> ->] ->] ->] ->] ->]. reflexivity.
Qed.
Lemma in_m_all r c : In (r, c) m_all <-> In c (m_tr r).
Proof.
  unfold m_all. rewrite in_concat. split.
  - intros [l [H1 H2]]. apply in_map_iff in H1. destruct H1 as [r' [<- _]]. apply in_map_iff in H2. destruct H2 as [c' [E H2]]. injection E as <- <-. exact H2.
  - intros H. exists (map (pair r) (m_tr r)). split; [|apply in_map; exact H]. apply in_map_iff. exists r. split; [reflexivity|]. apply in_seq. unfold m_tr in H.
    destruct (Nat.lt_ge_cases r (length trl)) as [L|L]; [lia|]. rewrite nth_overflow in H by exact L. destruct H.
Qed.
Lemma m_distinct_nodup l : m_distinct l = true -> NoDup l.
Proof.
  induction l as [|a r IH]; [constructor|]. cbn [m_distinct]. rewrite andb_true_iff, negb_true_iff. intros [H1 H2]. constructor; [|apply IH; exact H2].
  intros X. apply not_true_iff_false in H1. apply H1. apply existsb_exists. exists a. split; [exact X|]. apply m_creq_eqb_eq. reflexivity.
Qed.
Lemma m_sched_some p t x : m_sched p t = Some x -> (0 <= t)%Z /\ (p < length tab)%nat /\ (Z.to_nat t < length (nth p tab []))%nat.
Proof.
  unfold m_sched. destruct (t <? 0)%Z eqn:T; [discriminate|]. apply Z.ltb_ge in T. destruct (nth_error (nth p tab []) (Z.to_nat t)) as [y|] eqn:E; [|discriminate]. intros _.
  assert (L : (Z.to_nat t < length (nth p tab []))%nat) by (apply nth_error_Some; congruence). repeat split; try assumption.
  destruct (Nat.lt_ge_cases p (length tab)) as [Y|Y]; [exact Y|]. rewrite nth_overflow in L by exact Y. cbn in L. lia.
Qed.
Lemma m_at_spec lo hi i k t : m_at lo hi i k t = true <-> exists r b, In b (m_tr r) /\ cr_task b = i /\ cr_job b = k /\ (lo b <= t < hi b)%Z.
Proof.
  unfold m_at. rewrite existsb_exists. split.
  - intros [[r b] [H1 H2]]. apply in_m_all in H1. cbn [snd] in H2. rewrite !andb_true_iff, !Nat.eqb_eq, Z.leb_le, Z.ltb_lt in H2. exists r, b. tauto.
  - intros [r [b [H1 [H2 [H3 H4]]]]]. exists (r, b). split; [apply in_m_all; exact H1|]. cbn [snd]. rewrite !andb_true_iff, !Nat.eqb_eq, Z.leb_le, Z.ltb_lt. tauto.
Qed.
Lemma m_pending_spec i k t : m_pending i k t = true <-> pending m_rel m_comp i k t.
Proof. unfold m_pending, pending. rewrite andb_true_iff, Z.leb_le, Z.ltb_lt. reflexivity. Qed.
Lemma m_ready_spec i k t : m_ready i k t = true <-> ready m_rel m_comp i k t.
Proof.
  unfold m_ready, ready. rewrite andb_true_iff, m_pending_spec, forallb_forall. split; intros [A B]; split; try exact A.
  - intros l L. apply Z.leb_le, B, in_seq. lia.
  - intros l L. apply in_seq in L. apply Z.leb_le, B. lia.
Qed.
Lemma m_pending_job i k t : pending m_rel m_comp i k t -> In (i, k) m_jobs.
Proof.
  intros P. unfold pending, m_comp in P. destruct (Nat.lt_ge_cases k (length (nth i C []))) as [L|L]; [|rewrite nth_overflow in P by exact L; lia].
  assert (LI : (i < length C)%nat). { destruct (Nat.lt_ge_cases i (length C)) as [Y|Y]; [exact Y|]. rewrite nth_overflow in L by exact Y. cbn in L. lia. }
  unfold m_jobs. apply in_concat. exists (map (pair i) (seq 0 (length (nth i C [])))). split; [apply in_map_iff; exists i; split; [reflexivity|apply in_seq; lia]|apply in_map, in_seq; lia].
Qed.
Lemma m_above_sound c r s : m_above c r s = true -> forall p, remote_ceiling_reaches info c r p -> remote_ceiling_reaches info c s p.
Proof.
  unfold m_above. rewrite forallb_forall. intros H p [u [q [U1 [U2 [U3 [U4 U5]]]]]]. specialize (H u U1). rewrite !orb_true_iff, Nat.eqb_eq, negb_true_iff in H. destruct H as [[H|H]|H]; [congruence| |].
  - exfalso. apply not_true_iff_false in H. apply H. apply existsb_exists. exists q. split; [exact U3|apply Nat.eqb_eq; exact U4].
  - apply existsb_exists in H. destruct H as [v [V1 V2]]. rewrite !andb_true_iff, negb_true_iff, Nat.eqb_neq, N.leb_le in V2. destruct V2 as [[V2 V3] V4]. apply existsb_exists in V3. destruct V3 as [q' [Q1 Q2]]. apply Nat.eqb_eq in Q2.
    exists v, q'. repeat split; try assumption. lia.
Qed.

Lemma m_check_sound : m_check = true -> mpcp_execution info vs m_rel m_comp m_sched m_tr.
Proof.
  unfold m_check. rewrite !andb_true_iff. intros [[[[[[K1 K3] K4] K5] K6] K7] K8]. rewrite forallb_forall in K1, K3, K4, K5, K6, K7, K8.
  assert (J1 : forall r c, In c (m_tr r) -> (cr_issue c <= cr_start c <= cr_end c /\ m_rel (cr_task c) (cr_job c) <= cr_issue c /\ cr_end c <= m_comp (cr_task c) (cr_job c))%Z /\
    exists t, nth_error info (cr_task c) = Some t /\ (exists q, In q (ti_requests t) /\ q_res q = r /\ (instants (m_runs r c) (cr_start c) (cr_end c) <= Z.of_N (q_len q))%Z) /\
      (forall q, In q (ti_requests t) -> q_res q = r -> N.of_nat (length (filter (is_job (cr_task c) (cr_job c)) (m_tr r))) <= q_num q)).
  { intros r c H. apply in_m_all in H. specialize (K1 _ H). cbv beta iota in K1. destruct (nth_error info (cr_task c)) as [t|] eqn:E; [|rewrite andb_false_r in K1; discriminate].
    rewrite !andb_true_iff, !Z.leb_le in K1. destruct K1 as [[[[A1 A2] A3] A4] [A5 A6]]. split; [lia|]. exists t. split; [reflexivity|]. apply existsb_exists in A5. destruct A5 as [q [Q1 Q2]].
    rewrite andb_true_iff, Nat.eqb_eq, Z.leb_le in Q2. split; [exists q; tauto|]. intros p P1 P2. rewrite forallb_forall in A6. specialize (A6 p P1). rewrite P2, Nat.eqb_refl in A6. cbn [negb orb] in A6. apply N.leb_le. exact A6. }
  assert (J4 : forall r s a b, In a (m_tr r) -> In b (m_tr s) -> (r, a) <> (s, b) ->
    (cr_task a = cr_task b -> apart a b) /\ (r = s -> cr_end a <= cr_start b \/ cr_end b <= cr_start a)%Z /\
    (r = s -> (cr_issue b < cr_start a < cr_start b)%Z -> tprio info (cr_task a) <= tprio info (cr_task b)) /\ (tcpu info (cr_task a) = tcpu info (cr_task b) -> ~ (cr_start a < cr_issue b < cr_end a)%Z)).
  { intros r s a b A B NE. specialize (K4 _ (proj2 (in_m_all r a) A)). rewrite forallb_forall in K4. specialize (K4 _ (proj2 (in_m_all s b) B)). cbv beta iota in K4. apply orb_true_iff in K4. destruct K4 as [K4|K4].
    - exfalso. apply NE. rewrite andb_true_iff, Nat.eqb_eq, m_creq_eqb_eq in K4. destruct K4 as [-> ->]. reflexivity.
    - rewrite !andb_true_iff, !orb_true_iff, !negb_true_iff, !Nat.eqb_neq, !andb_false_iff, !Z.leb_le, !Z.ltb_ge, N.leb_le in K4. destruct K4 as [[[X1 X2] X3] X4]. unfold apart.
      split; [intros E; destruct X1 as [[X|X]|X]; [contradiction|auto|auto]|]. split; [intros E; destruct X2 as [[X|X]|X]; [contradiction|auto|auto]|].
      split; [intros E L; destruct X3 as [[X|X]|X]; [contradiction|lia|exact X]|]. intros E L. destruct X4 as [X|X]; [contradiction|lia]. }
  assert (ND : forall r, NoDup (m_tr r)).
  { intros r. unfold m_tr. destruct (Nat.lt_ge_cases r (length trl)) as [L|L]; [|rewrite nth_overflow by exact L; constructor]. apply m_distinct_nodup, K3, nth_In, L. }
  constructor.
  - intros r. constructor.
    + intros c H. apply (J1 r c H).
    + intros c H. destruct (J1 r c H) as [_ [t [T1 [[q Q] _]]]]. exists t, q. tauto.
    + intros i k t q H1 H2 H3. subst r. destruct (filter (is_job i k) (m_tr (q_res q))) as [|c l] eqn:E; [cbn; lia|]. rewrite <- E.
      assert (X : In c (filter (is_job i k) (m_tr (q_res q)))) by (rewrite E; left; reflexivity). apply filter_In in X. destruct X as [X Y]. unfold is_job in Y. rewrite andb_true_iff, !Nat.eqb_eq in Y. destruct Y as [<- <-].
      destruct (J1 _ _ X) as [_ [t' [T1 [_ T2]]]]. rewrite H1 in T1. injection T1 as <-. apply T2; [exact H2|reflexivity].
    + intros c H. apply (J1 r c H).
    + assert (G : forall l, NoDup l -> (forall c, In c l -> In c (m_tr r)) -> ForallOrdPairs (fun a b => cr_task a = cr_task b -> apart a b) l).
      { induction l as [|a l IH]; intros NDl H; [constructor|]. inversion NDl; subst. constructor; [|apply IH; [assumption|intros; apply H; right; assumption]].
        apply Forall_forall. intros b Hb E. apply (J4 r r a b (H a (or_introl eq_refl)) (H b (or_intror Hb))); [|exact E]. intros X. injection X as ->. contradiction. }
      apply G; auto.
  - intros p t j l H. destruct (m_sched_some _ _ _ H) as [H1 [H2 H3]]. specialize (K5 p ltac:(apply in_seq; lia)). rewrite forallb_forall in K5. specialize (K5 (Z.to_nat t) ltac:(apply in_seq; lia)). cbv beta in K5.
    rewrite Z2Nat.id in K5 by exact H1. rewrite H in K5. rewrite !andb_true_iff, Nat.eqb_eq, negb_true_iff, m_pending_spec in K5. split; [apply K5|]. split; [apply K5|].
    intros X. apply (proj2 (m_at_spec cr_issue cr_start j l t)) in X. destruct K5 as [_ K5]. unfold m_susp in K5. congruence.
  - exact ND.
  - intros r s a b A B NE E. apply (proj1 (J4 r s a b A B NE) E).
  - intros r a b A B NE. apply (J4 r r a b A B); [intros X; injection X; exact NE|reflexivity].
  - intros r b t B T. specialize (K6 _ (proj2 (in_m_all r b) B)). cbv beta iota in K6. rewrite forallb_forall in K6. specialize (K6 t (proj2 (in_zrange _ _ _) T)). cbv beta in K6. apply existsb_exists in K6. destruct K6 as [a [A1 A2]].
    rewrite !andb_true_iff, Z.leb_le, !Z.ltb_lt in A2. exists a. tauto.
  - intros r a b A B L. assert (NE : (r, a) <> (r, b)) by (intros X; injection X as ->; lia). apply (J4 r r a b A B NE); [reflexivity|exact L].
  - intros r a t A T. specialize (K7 _ (proj2 (in_m_all r a) A)). cbv beta iota in K7. rewrite forallb_forall in K7. specialize (K7 t (proj2 (in_zrange _ _ _) T)). cbv beta in K7. apply existsb_exists in K7. destruct K7 as [[s c] [C1 C2]].
    rewrite !andb_true_iff, Nat.eqb_eq in C2. apply in_m_all in C1. exists s, c. unfold m_runs in C2. destruct C2 as [[C2 C3] C4]. repeat split; try assumption. apply m_above_sound. exact C4.
  - intros i k tsk t H1 H2 H3. specialize (K8 _ (m_pending_job i k t (proj1 H2))). cbv beta iota in K8. rewrite H1, andb_true_iff in K8. destruct K8 as [K8 _].
    rewrite forallb_forall in K8. specialize (K8 t (proj2 (in_zrange _ _ _) (proj1 H2))). cbv beta in K8. rewrite (proj2 (m_ready_spec i k t) H2) in K8. cbn [negb orb] in K8.
    apply orb_true_iff in K8. destruct K8 as [K8|K8]; [exfalso; apply H3, (m_at_spec cr_issue cr_start), K8|].
    destruct (m_sched (ti_cluster tsk) t) as [[j l]|] eqn:E; [|discriminate]. exists j, l. split; [reflexivity|]. apply orb_true_iff in K8. rewrite N.leb_le in K8. destruct K8 as [K8|K8]; [left; exact K8|right]. apply (m_at_spec cr_start cr_end). exact K8.
  - intros r s a b A B NE E. apply (J4 r s a b A B NE). exact E.
  - intros i k tsk r a H1 A CP PR H2 H3. specialize (K8 _ (m_pending_job i k _ (proj1 H2))). cbv beta iota in K8. rewrite H1, andb_true_iff in K8. destruct K8 as [_ K8].
    rewrite forallb_forall in K8. specialize (K8 _ (proj2 (in_m_all r a) A)). cbv beta iota in K8. rewrite CP, Nat.eqb_refl, (proj2 (N.ltb_lt _ _) PR), (proj2 (m_ready_spec i k _) H2) in K8. cbn [negb orb] in K8.
    rewrite !orb_true_iff, !andb_true_iff, negb_true_iff, Z.eqb_eq in K8. destruct K8 as [[[V S]|K8]|[V K8]].
    + exfalso. destruct H3 as [H3|H3]; [congruence|]. apply H3, (m_at_spec cr_issue cr_start), S.
    + left. exact K8.
    + right. split; [exact V|]. apply existsb_exists in K8. destruct K8 as [[s b] [B1 B2]]. apply in_m_all in B1. rewrite !andb_true_iff, !Nat.eqb_eq, Z.eqb_eq, !Z.ltb_lt in B2. exists s, b. tauto.
Qed.

Lemma m_sporadic : map ti_id info = seq 0 (length info) ->
  forallb (fun t => forallb (fun k => (m_rel (ti_id t) k <=? m_comp (ti_id t) k)%Z && (m_comp (ti_id t) k <=? m_rel (ti_id t) k + Z.of_N (ti_response t))%Z) (seq 0 (length (nth (ti_id t) C [])))) info = true ->
  forall t, In t info -> sporadic_jobs (ti_period t) (ti_response t) (m_rel (ti_id t)) (m_comp (ti_id t)).
Proof.
  intros ID H t Ht. assert (E : nth_error info (ti_id t) = Some t).
  { apply In_nth_error in Ht. destruct Ht as [n Hn]. assert (X := map_nth_error ti_id _ _ Hn). rewrite ID in X. assert (L : (n < length info)%nat) by (apply nth_error_Some; congruence).
    assert (Y := nth_error_nth _ _ 0%nat X). rewrite seq_nth in Y by exact L. cbn in Y. subst n. exact Hn. }
  rewrite forallb_forall in H. specialize (H t Ht). rewrite forallb_forall in H. split; intros k.
  - unfold m_rel. rewrite E. lia.
  - destruct (Nat.lt_ge_cases k (length (nth (ti_id t) C []))) as [L|L].
    + specialize (H k ltac:(apply in_seq; lia)). rewrite andb_true_iff, !Z.leb_le in H. exact H.
    + unfold m_comp. rewrite nth_overflow by exact L. lia.
Qed.

Definition m_delayed (i k : nat) (tsk : taskinfo) (t : Z) : bool :=
  m_pending i k t && negb (m_susp i k t) && match m_sched (ti_cluster tsk) t with Some (j, _) => ti_prio tsk <? tprio info j | None => true end.
Lemma m_delayed_sound i k tsk t : nth_error info i = Some tsk -> m_delayed i k tsk t = true -> delayed_by_lower info m_rel m_comp m_sched m_tr i k t.
Proof.
  intros H. unfold m_delayed. rewrite !andb_true_iff, m_pending_spec, negb_true_iff. intros [[H1 H2] H3]. exists tsk. split; [exact H|]. split; [exact H1|]. split.
  - intros X. apply (proj2 (m_at_spec cr_issue cr_start i k t)) in X. unfold m_susp in H2. congruence.
  - intros j l E. rewrite E in H3. apply N.ltb_lt. exact H3.
Qed.
End Finite.

(** ** A job that waits for a remote request and is delayed by two local ones *)
Definition mx_info : list taskinfo :=
  [TI 0 0 100 100 20 0 10 [Req 0 1 1 false]; TI 1 1 100 100 20 0 10 [Req 1 2 3 false]; TI 2 2 100 100 20 1 10 [Req 0 1 4 false]; TI 3 3 100 100 20 1 10 [Req 1 1 2 false]].
Definition mx_trace : list (list creq) := [[CReq 2 0 1 2 2 6; CReq 0 0 0 4 6 7]; [CReq 1 0 0 0 0 3; CReq 1 0 0 5 5 9]].
Definition mx_tab : list (list (option (nat * nat))) :=
  [map (fun j => Some (j, 0%nat)) [1; 1; 1; 0; 1; 1; 0; 1; 1; 0]%nat; map (option_map (fun j => (j, 0%nat))) [None; None; Some 2; Some 2; Some 2; Some 2]%nat].
Definition mx_R : list Z := [1; 0; 2; 0]%Z.
Definition mx_C : list (list Z) := [[10]; [9]; [6]; [0]]%Z.
(** with virtual spinning the second local request is not issued *)
Definition mv_trace : list (list creq) := [[CReq 2 0 1 2 2 6; CReq 0 0 0 4 6 7]; [CReq 1 0 0 0 0 3]].
Definition mv_tab : list (list (option (nat * nat))) :=
  [map (fun j => Some (j, 0%nat)) [1; 1; 1; 0; 1; 1; 0; 0; 1]%nat; map (option_map (fun j => (j, 0%nat))) [None; None; Some 2; Some 2; Some 2; Some 2]%nat].
Definition mv_C : list (list Z) := [[8]; [9]; [6]; [0]]%Z.

Example C65_case : wf_info mx_info /\ NoDup (map ti_prio mx_info) /\ (forall t, In t mx_info -> ti_response t <= ti_period t) /\ fits_uint mx_info (nth 0 mx_info (TI 0 0 0 0 0 0 0 [])) /\
  (let rel := m_rel mx_info mx_R in let comp := m_comp mx_info mx_R mx_C in let sched := m_sched mx_tab in let tr := m_tr mx_trace in
   (forall t, In t mx_info -> sporadic_jobs (ti_period t) (ti_response t) (rel (ti_id t)) (comp (ti_id t))) /\ mpcp_execution mx_info false rel comp sched tr /\
   (forall t, In t [4; 5]%Z -> suspended tr 0 0 t) /\ (forall t, In t [1; 2; 7; 8]%Z -> delayed_by_lower mx_info rel comp sched tr 0 0 t)) /\
  (let rel := m_rel mx_info mx_R in let comp := m_comp mx_info mx_R mv_C in let sched := m_sched mv_tab in let tr := m_tr mv_trace in
   (forall t, In t mx_info -> sporadic_jobs (ti_period t) (ti_response t) (rel (ti_id t)) (comp (ti_id t))) /\ mpcp_execution mx_info true rel comp sched tr /\
   (forall t, In t [4; 5]%Z -> suspended tr 0 0 t) /\ (forall t, In t [1; 2]%Z -> delayed_by_lower mx_info rel comp sched tr 0 0 t)) /\
  map (option_map (fun b => (i_len (bb_remote b), i_len (bb_local b)))) (mpcp_bounds mx_info false) = [Some (4, 6); Some (12, 0); Some (2, 4); Some (16, 0)] /\
  map (option_map (fun b => (i_len (bb_remote b), i_len (bb_local b)))) (mpcp_bounds mx_info true) = [Some (4, 3); Some (12, 0); Some (2, 2); Some (16, 0)].
Proof.
  split; [split; [reflexivity|]; intros t H; repeat (destruct H as [<-|H]; [split; [reflexivity|cbn; repeat constructor; intros []]|]); destruct H|].
  split; [repeat constructor; cbn; intuition discriminate|]. split; [intros t H; repeat (destruct H as [<-|H]; [cbn; lia|]); destruct H|].
  split; [split; [split; [cbn; lia|intros q [<-|[]]; cbn; lia]|vm_compute; discriminate]|].
  split; [cbv zeta; split; [apply m_sporadic; vm_compute; reflexivity|]; split; [apply m_check_sound; vm_compute; reflexivity|]; split;
    [intros t H; apply (proj1 (m_at_spec mx_trace cr_issue cr_start 0 0 t)); repeat (destruct H as [<-|H]; [vm_compute; reflexivity|]); destruct H|
     intros t H; eapply m_delayed_sound; [reflexivity|]; repeat (destruct H as [<-|H]; [vm_compute; reflexivity|]); destruct H]|].
  split; [cbv zeta; split; [apply m_sporadic; vm_compute; reflexivity|]; split; [apply m_check_sound; vm_compute; reflexivity|]; split;
    [intros t H; apply (proj1 (m_at_spec mv_trace cr_issue cr_start 0 0 t)); repeat (destruct H as [<-|H]; [vm_compute; reflexivity|]); destruct H|
     intros t H; eapply m_delayed_sound; [reflexivity|]; repeat (destruct H as [<-|H]; [vm_compute; reflexivity|]); destruct H]|].
  split; vm_compute; reflexivity.
Qed.

(** ** Where the bounds are not safe *)

(** two tasks whose response times exceed their periods, so that jobs accumulate *)
Definition ma_info : list taskinfo :=
  [TI 0 0 10 40 40 1 24 [Req 0 1 2 false]; TI 1 1 10 40 40 2 24 [Req 0 1 2 false]; TI 2 2 100 100 100 0 10 [Req 0 1 1 false]].
Definition ma_trace : list (list creq) :=
  [[CReq 0 0 1 20 20 22; CReq 1 0 2 20 22 24; CReq 0 1 1 22 24 26; CReq 1 1 2 24 26 28; CReq 0 2 1 26 28 30; CReq 1 2 2 28 30 32; CReq 2 0 0 20 32 33]].
Definition ma_tab : list (list (option (nat * nat))) :=
  [repeat None 32 ++ [Some (2, 0)%nat];
   repeat (Some (0, 0)%nat) 22 ++ repeat None 2 ++ repeat (Some (0, 1)%nat) 2 ++ repeat None 2 ++ repeat (Some (0, 2)%nat) 2;
   repeat (Some (1, 0)%nat) 20 ++ repeat None 2 ++ repeat (Some (1, 0)%nat) 2 ++ repeat None 2 ++ repeat (Some (1, 1)%nat) 2 ++ repeat None 2 ++ repeat (Some (1, 2)%nat) 2].
Definition ma_R : list Z := [0; 0; 20]%Z.
Definition ma_C : list (list Z) := [[22; 26; 30]; [24; 28; 32]; [33]]%Z.

Theorem C65_arbitrary_deadlines_unsafe : exists info vs rel comp sched tr i k tsk b,
  wf_info info /\ NoDup (map ti_prio info) /\ ~ (forall t, In t info -> ti_response t <= ti_period t) /\
  (forall t, In t info -> sporadic_jobs (ti_period t) (ti_response t) (rel (ti_id t)) (comp (ti_id t))) /\
  mpcp_execution info vs rel comp sched tr /\ nth_error info i = Some tsk /\ fits_uint info tsk /\
  nth_error (mpcp_bounds info vs) i = Some (Some b) /\ ~ at_most (i_len (bb_remote b)) (suspended tr i k).
Proof.
  exists ma_info, true, (m_rel ma_info ma_R), (m_comp ma_info ma_R ma_C), (m_sched ma_tab), (m_tr ma_trace), 2%nat, 0%nat, (TI 2 2 100 100 100 0 10 [Req 0 1 1 false]). eexists.
  split; [split; [reflexivity|]; intros t H; repeat (destruct H as [<-|H]; [split; [reflexivity|cbn; repeat constructor; intros []]|]); destruct H|].
  split; [repeat constructor; cbn; intuition discriminate|]. split; [intros H; specialize (H _ (or_introl eq_refl)); cbn in H; lia|].
  split; [apply m_sporadic; vm_compute; reflexivity|]. split; [apply m_check_sound; vm_compute; reflexivity|]. split; [reflexivity|].
  split; [split; [split; [cbn; lia|intros q [<-|[]]; cbn; lia]|vm_compute; discriminate]|]. split; [vm_compute; reflexivity|].
  intros A. specialize (A (zrange 20 32)). cbn [bb_remote i_len] in A. assert (L : length (zrange 20 32) = 12%nat) by reflexivity. rewrite L in A. enough (N.of_nat 12 <= 8) by lia. apply A.
  - apply zrange_nodup.
  - intros t H. apply (proj1 (m_at_spec ma_trace cr_issue cr_start 2 0 t)). cbn in H. repeat (destruct H as [<-|H]; [vm_compute; reflexivity|]). destruct H.
Qed.
Print Assumptions C65_arbitrary_deadlines_unsafe.

(** tasks of equal priority may wait for each other in turn *)
Definition me_info : list taskinfo :=
  [TI 0 5 100 100 100 0 10 [Req 0 1 1 false]; TI 1 5 100 100 100 1 10 [Req 0 1 1 false]; TI 2 5 100 100 100 2 10 [Req 0 1 1 false]].
Definition me_trace : list (list creq) := [[CReq 0 0 0 0 0 1; CReq 1 0 1 0 1 2; CReq 2 0 2 0 2 3]].
Definition me_tab : list (list (option (nat * nat))) := [[Some (0, 0)%nat]; [None; Some (1, 0)%nat]; [None; None; Some (2, 0)%nat]].

Theorem C65_equal_priorities_unsafe : exists info vs rel comp sched tr i k tsk b,
  wf_info info /\ ~ NoDup (map ti_prio info) /\ (forall t, In t info -> ti_response t <= ti_period t) /\
  (forall t, In t info -> sporadic_jobs (ti_period t) (ti_response t) (rel (ti_id t)) (comp (ti_id t))) /\
  mpcp_execution info vs rel comp sched tr /\ nth_error info i = Some tsk /\ fits_uint info tsk /\
  nth_error (mpcp_bounds info vs) i = Some (Some b) /\ ~ at_most (i_len (bb_remote b)) (suspended tr i k).
Proof.
  exists me_info, true, (m_rel me_info [0; 0; 0]%Z), (m_comp me_info [0; 0; 0]%Z [[1]; [2]; [3]]%Z), (m_sched me_tab), (m_tr me_trace), 2%nat, 0%nat, (TI 2 5 100 100 100 2 10 [Req 0 1 1 false]). eexists.
  split; [split; [reflexivity|]; intros t H; repeat (destruct H as [<-|H]; [split; [reflexivity|cbn; repeat constructor; intros []]|]); destruct H|].
  split; [intros H; inversion H as [|x y N _]; apply N; left; reflexivity|]. split; [intros t H; repeat (destruct H as [<-|H]; [cbn; lia|]); destruct H|].
  split; [apply m_sporadic; vm_compute; reflexivity|]. split; [apply m_check_sound; vm_compute; reflexivity|]. split; [reflexivity|].
  split; [split; [split; [cbn; lia|intros q [<-|[]]; cbn; lia]|vm_compute; discriminate]|]. split; [vm_compute; reflexivity|].
  intros A. specialize (A [0; 1]%Z). cbn [bb_remote i_len length] in A. enough (N.of_nat 2 <= 1) by lia. apply A.
  - repeat constructor; cbn; intuition discriminate.
  - intros t H. apply (proj1 (m_at_spec me_trace cr_issue cr_start 2 0 t)). repeat (destruct H as [<-|H]; [vm_compute; reflexivity|]). destruct H.
Qed.
Print Assumptions C65_equal_priorities_unsafe.

(** the product of the bound on one wait and of the number of requests wraps to zero *)
Definition mw_info : list taskinfo :=
  [TI 0 0 131072 131072 131072 0 10 [Req 0 65536 1 false]; TI 1 1 131072 131072 131072 1 10 [Req 0 1 65536 false]].
Definition mw_trace : list (list creq) := [[CReq 1 0 1 0 0 2; CReq 0 0 0 1 2 3]].
Definition mw_tab : list (list (option (nat * nat))) := [[None; None; Some (0, 0)%nat]; [Some (1, 0)%nat; Some (1, 0)%nat]].

Theorem C65_wraparound_unsafe : exists info vs rel comp sched tr i k tsk b,
  wf_info info /\ NoDup (map ti_prio info) /\ (forall t, In t info -> ti_response t <= ti_period t) /\
  (forall t, In t info -> sporadic_jobs (ti_period t) (ti_response t) (rel (ti_id t)) (comp (ti_id t))) /\
  mpcp_execution info vs rel comp sched tr /\ nth_error info i = Some tsk /\ ~ fits_uint info tsk /\
  nth_error (mpcp_bounds info vs) i = Some (Some b) /\ i_len (bb_block b) = 0 /\ ~ at_most (i_len (bb_block b)) (suspended tr i k).
Proof.
  exists mw_info, true, (m_rel mw_info [1; 0]%Z), (m_comp mw_info [1; 0]%Z [[3]; [2]]%Z), (m_sched mw_tab), (m_tr mw_trace), 0%nat, 0%nat, (TI 0 0 131072 131072 131072 0 10 [Req 0 65536 1 false]). eexists.
  split; [split; [reflexivity|]; intros t H; repeat (destruct H as [<-|H]; [split; [reflexivity|cbn; repeat constructor; intros []]|]); destruct H|].
  split; [repeat constructor; cbn; intuition discriminate|]. split; [intros t H; repeat (destruct H as [<-|H]; [cbn; lia|]); destruct H|].
  split; [apply m_sporadic; vm_compute; reflexivity|]. split; [apply m_check_sound; vm_compute; reflexivity|]. split; [reflexivity|].
  split; [intros [[_ X] _]; specialize (X _ (or_introl eq_refl)); vm_compute in X; congruence|]. split; [vm_compute; reflexivity|]. split; [reflexivity|].
  intros A. specialize (A [1]%Z). cbn [bb_block i_len length] in A. enough (N.of_nat 1 <= 0) by lia. apply A.
  - repeat constructor; intros [].
  - intros t [<-|[]]. apply (proj1 (m_at_spec mw_trace cr_issue cr_start 0 0 1)). vm_compute. reflexivity.
Qed.
Print Assumptions C65_wraparound_unsafe.
