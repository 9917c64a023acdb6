(** C64: the bounds of the partitioned FMLP+. *)
From Coq Require Import NArith ZArith List Bool Lia Arith.
From Verif Require Import ModelLocking ModelFMLPPlus SpecLocking SpecQueue SpecDPCP SpecFMLPPlus ProofLocking ProofSpin ProofQueue ProofBlame ProofFMLPPlus.
Import ListNotations.
Open Scope N_scope.

Lemma fmlpp_result info (np : bool) i tsk : nth_error info i = Some tsk ->
  let clusters := split_by_cluster info 0 in
  let per := map sort_by_request_length (all_per_cluster clusters) in
  let contention := map (map sort_by_request_length) (derive_task_contention clusters) in
  let counts := pfmlp_count_direct_blocking tsk (split_clusters_by_resource clusters) in
  let remote := pfmlp_bound_remote_blocking tsk (issued_counts per tsk) counts contention in
  let remote' := if np then iadd remote (pfmlp_bound_np_blocking tsk counts per) else remote in
  let local := pfmlp_bound_local_blocking tsk counts contention in
  nth_error (part_fmlp_bounds info (negb np)) i = Some (BB (iadd remote' local) inter0 inter0 remote' local).
Proof. intros H. cbv zeta. unfold part_fmlp_bounds. cbv zeta. rewrite (map_nth_error _ _ _ H), negb_involutive. reflexivity. Qed.

(** a task on the processor of [tsk] uses a resource that [tsk] uses *)
Definition local_sharing (info : list taskinfo) (tsk : taskinfo) : Prop :=
  exists x q q', In x info /\ ti_id x <> ti_id tsk /\ ti_cluster x = ti_cluster tsk /\ In q (ti_requests x) /\ In q' (ti_requests tsk) /\ q_res q = q_res q'.

(** the vectors are long enough for the indices used *)
Theorem C64_indices_valid : forall info tsk, In tsk info ->
  let clusters := split_by_cluster info 0 in
  (ti_cluster tsk < length (derive_task_contention clusters))%nat /\
  length (pfmlp_count_direct_blocking tsk (split_clusters_by_resource clusters)) = length (derive_task_contention clusters) /\
  length (issued_counts (map sort_by_request_length (all_per_cluster clusters)) tsk) = length (derive_task_contention clusters).
Proof.
  intros info tsk H. cbv zeta. unfold derive_task_contention, pfmlp_count_direct_blocking, split_clusters_by_resource, issued_counts, count_accesses_for_task, all_per_cluster. rewrite !map_length. split; [|auto].
  apply (cluster_lt info tsk H).
Qed.
Print Assumptions C64_indices_valid.

(** waiting for jobs on other processors *)
Theorem C64_remote_safe : forall info np rel comp sched stamp tr i k tsk,
  wf_info info ->
  (forall t, In t info -> sporadic_jobs (ti_period t) (ti_response t) (rel (ti_id t)) (comp (ti_id t))) ->
  fmlpp_execution info np rel comp sched stamp tr -> nth_error info i = Some tsk -> numbers_fit info tsk ->
  exists b, nth_error (part_fmlp_bounds info (negb np)) i = Some b /\
  at_most (i_len (bb_remote b)) (waits_for_remote info tr i k).
Proof.
  intros info np rel comp sched stamp tr i k tsk W SJ EX Hi FIT. eexists. split; [apply fmlpp_result; exact Hi|]. cbn [bb_remote].
  destruct (wf_nth info i tsk W Hi) as [<- Hin]. intros ts ND H. apply (remote_safe info np rel comp sched stamp tr W SJ EX tsk k Hin FIT ts ND H).
Qed.
Print Assumptions C64_remote_safe.

(** other delays that are not due to jobs of higher priority *)
Theorem C64_local_safe : forall info np rel comp sched stamp tr i k tsk,
  wf_info info ->
  (forall t, In t info -> sporadic_jobs (ti_period t) (ti_response t) (rel (ti_id t)) (comp (ti_id t))) ->
  fmlpp_execution info np rel comp sched stamp tr -> nth_error info i = Some tsk -> numbers_fit info tsk ->
  np = false \/ ~ local_sharing info tsk ->
  exists b, nth_error (part_fmlp_bounds info (negb np)) i = Some b /\
  at_most (i_len (bb_local b)) (blocked_locally info rel comp sched tr i k).
Proof.
  intros info np rel comp sched stamp tr i k tsk W SJ EX Hi FIT NP. eexists. split; [apply fmlpp_result; exact Hi|]. cbn [bb_local].
  destruct (wf_nth info i tsk W Hi) as [<- Hin]. intros ts ND H. apply (local_safe info np rel comp sched stamp tr W SJ EX tsk k Hin FIT ts ND NP H).
Qed.
Print Assumptions C64_local_safe.

(** all pi-blocking *)
Theorem C64_total_safe : forall info np rel comp sched stamp tr i k tsk,
  wf_info info ->
  (forall t, In t info -> sporadic_jobs (ti_period t) (ti_response t) (rel (ti_id t)) (comp (ti_id t))) ->
  fmlpp_execution info np rel comp sched stamp tr -> nth_error info i = Some tsk -> numbers_fit info tsk ->
  np = false \/ ~ local_sharing info tsk ->
  exists b, nth_error (part_fmlp_bounds info (negb np)) i = Some b /\
  at_most (i_len (bb_block b)) (fun t => pi_blocked info rel comp sched i k t \/ waits_for_remote info tr i k t).
Proof.
  intros info np rel comp sched stamp tr i k tsk W SJ EX Hi FIT NP. eexists. split; [apply fmlpp_result; exact Hi|]. cbn [bb_block].
  destruct (wf_nth info i tsk W Hi) as [<- Hin]. intros ts ND H. apply (total_safe info np rel comp sched stamp tr W SJ EX tsk k Hin FIT ts ND NP H).
Qed.
Print Assumptions C64_total_safe.

(** ** Executions in which only the first job of each task executes *)
Section Finite.
Context (info : list taskinfo) (np : bool) (P : Z) (R C : list Z) (tab : list (list (option nat))) (trl : list (list creq)).
Definition f_rel (i k : nat) : Z := (P * Z.of_nat k + nth i R 0)%Z.
Definition f_comp (i k : nat) : Z := match k with O => nth i C 0%Z | S _ => f_rel i k end.
Definition f_sched (p : nat) (t : Z) : option (nat * nat) :=
  if (t <? 0)%Z then None else match nth_error (nth p tab []) (Z.to_nat t) with Some (Some j) => Some (j, 0%nat) | _ => None end.
Definition f_tr (r : nat) : list creq := nth r trl [].
Definition f_stamp (r : nat) (c : creq) : Z := (100 * cr_issue c + Z.of_nat (cr_cpu c))%Z.

Definition creq_eqb (a b : creq) : bool :=
  Nat.eqb (cr_task a) (cr_task b) && Nat.eqb (cr_job a) (cr_job b) && Nat.eqb (cr_cpu a) (cr_cpu b) && (cr_issue a =? cr_issue b)%Z && (cr_start a =? cr_start b)%Z && (cr_end a =? cr_end b)%Z.
Definition f_all : list (nat * creq) := concat (map (fun r => map (pair r) (f_tr r)) (seq 0 (length trl))).
Definition f_susp (i : nat) (t : Z) : bool := existsb (fun rb => Nat.eqb (cr_task (snd rb)) i && (cr_issue (snd rb) <=? t)%Z && (t <? cr_start (snd rb))%Z) f_all.
Definition f_holds (i : nat) (t : Z) : bool := existsb (fun rb => Nat.eqb (cr_task (snd rb)) i && (cr_start (snd rb) <=? t)%Z && (t <? cr_end (snd rb))%Z) f_all.
Definition f_pending (i : nat) (t : Z) : bool := (nth i R 0 <=? t)%Z && (t <? nth i C 0)%Z.
Definition f_runs := runs info f_sched.
Definition apartb (a b : creq) : bool := (cr_end a <=? cr_issue b)%Z || (cr_end b <=? cr_issue a)%Z.
Fixpoint distinct (l : list creq) : bool := match l with [] => true | a :: r => negb (existsb (creq_eqb a) r) && distinct r end.

Definition f_check : bool :=
  forallb (fun rc => let '(r, c) := rc in
    (cr_issue c <=? cr_start c)%Z && (cr_start c <=? cr_end c)%Z && Nat.eqb (cr_job c) 0 && (nth (cr_task c) R 0 <=? cr_issue c)%Z && (cr_end c <=? nth (cr_task c) C 0)%Z &&
    match nth_error info (cr_task c) with
    | Some t => existsb (fun q => Nat.eqb (q_res q) r && (instants (f_runs r c) (cr_start c) (cr_end c) <=? Z.of_N (q_len q))%Z) (ti_requests t)
    | None => false end) f_all &&
  forallb (fun i => match nth_error info i with
    | Some t => forallb (fun q => N.of_nat (length (filter (is_job i 0) (f_tr (q_res q)))) <=? q_num q) (ti_requests t) | None => true end) (seq 0 (length info)) &&
  forallb distinct trl &&
  forallb (fun ra => forallb (fun sb => let '(r, a) := ra in let '(s, b) := sb in
    ((Nat.eqb r s && creq_eqb a b) || negb (Nat.eqb (cr_task a) (cr_task b)) || apartb a b) &&
    (negb (f_stamp r a <? f_stamp s b)%Z || (cr_issue a <=? cr_issue b)%Z) &&
    (negb (Nat.eqb r s) || creq_eqb a b || ((f_stamp r a <? f_stamp r b)%Z && (cr_end a <=? cr_start b)%Z) || ((f_stamp r b <? f_stamp r a)%Z && (cr_end b <=? cr_start a)%Z))) f_all) f_all &&
  forallb (fun p => forallb (fun n => match f_sched p (Z.of_nat n) with
    | Some (j, _) => Nat.eqb (tcpu info j) p && f_pending j (Z.of_nat n) && negb (f_susp j (Z.of_nat n)) | None => true end) (seq 0 (length (nth p tab [])))) (seq 0 (length tab)) &&
  forallb (fun rb => let '(r, b) := rb in forallb (fun t => existsb (fun a => (cr_start a <=? t)%Z && (t <? cr_end a)%Z && (f_stamp r a <? f_stamp r b)%Z) (f_tr r)) (zrange (cr_issue b) (cr_start b))) f_all &&
  forallb (fun ra => let '(r, a) := ra in forallb (fun t => existsb (fun sc => let '(s, c) := sc in
    Nat.eqb (tcpu info (cr_task c)) (tcpu info (cr_task a)) && f_runs s c t && ((f_stamp s c <=? f_stamp r a)%Z || (np && f_runs s c (cr_start a)))) f_all) (zrange (cr_start a) (cr_end a))) f_all &&
  forallb (fun i => match nth_error info i with
    | Some tsk => forallb (fun t => f_susp i t || match f_sched (ti_cluster tsk) t with Some (j, _) => (tprio info j <=? ti_prio tsk) || f_holds j t | None => false end) (zrange (nth i R 0%Z) (nth i C 0%Z)) &&
      forallb (fun ra => let '(r, a) := ra in
        negb (Nat.eqb (tcpu info (cr_task a)) (ti_cluster tsk)) || negb (ti_prio tsk <? tprio info (cr_task a)) || negb (f_pending i (cr_issue a - 1)) || f_susp i (cr_issue a - 1) ||
        (cr_issue a =? nth i C 0)%Z || existsb (fun sb => let '(s, b) := sb in Nat.eqb (cr_task b) i && (cr_issue b =? cr_issue a)%Z && (cr_issue b <? cr_start b)%Z && (f_stamp s b <? f_stamp r a)%Z) f_all) f_all
    | None => true end) (seq 0 (length info)).

Lemma creq_eqb_eq a b : creq_eqb a b = true <-> a = b.
Proof.
  unfold creq_eqb. rewrite !andb_true_iff, !Nat.eqb_eq, !Z.eqb_eq. split; [|intros ->; tauto]. destruct a, b; cbn. intros [[[[[-> ->] ->] ->] ->] ->]. reflexivity.
Qed.
Lemma in_f_all r c : In (r, c) f_all <-> In c (f_tr r).
Proof.
  unfold f_all. rewrite in_concat. split.
  - intros [l [H1 H2]]. apply in_map_iff in H1. destruct H1 as [r' [<- _]]. apply in_map_iff in H2. destruct H2 as [c' [E H2]]. injection E as <- <-. exact H2.
  - intros H. exists (map (pair r) (f_tr r)). split; [|apply in_map; exact H]. apply in_map_iff. exists r. split; [reflexivity|]. apply in_seq. unfold f_tr in H.
    destruct (Nat.lt_ge_cases r (length trl)) as [L|L]; [lia|]. rewrite nth_overflow in H by exact L. destruct H.
Qed.
Lemma in_zrange t lo hi : In t (zrange lo hi) <-> (lo <= t < hi)%Z.
Proof.
  unfold zrange. rewrite in_map_iff. split.
  - intros [n [<- H]]. apply in_seq in H. lia.
  - intros H. exists (Z.to_nat (t - lo)). split; [lia|]. apply in_seq. lia.
Qed.
Lemma distinct_nodup l : distinct l = true -> NoDup l.
Proof.
  induction l as [|a r IH]; [constructor|]. cbn [distinct]. rewrite andb_true_iff, negb_true_iff. intros [H1 H2]. constructor; [|apply IH; exact H2].
  intros X. apply not_true_iff_false in H1. apply H1. apply existsb_exists. exists a. split; [exact X|]. apply creq_eqb_eq. reflexivity.
Qed.
Lemma f_sched_some p t j l : f_sched p t = Some (j, l) -> l = 0%nat /\ (0 <= t)%Z /\ (p < length tab)%nat /\ (Z.to_nat t < length (nth p tab []))%nat.
Proof.
  unfold f_sched. destruct (t <? 0)%Z eqn:T; [discriminate|]. apply Z.ltb_ge in T. destruct (nth_error (nth p tab []) (Z.to_nat t)) as [[j'|]|] eqn:E; try discriminate. intros X. injection X as <- <-.
  assert (L : (Z.to_nat t < length (nth p tab []))%nat) by (apply nth_error_Some; congruence). repeat split; try assumption.
  destruct (Nat.lt_ge_cases p (length tab)) as [Y|Y]; [exact Y|]. rewrite nth_overflow in L by exact Y. cbn in L. lia.
Qed.

Lemma f_check_sound : f_check = true -> fmlpp_execution info np f_rel f_comp f_sched f_stamp f_tr.
Proof.
  unfold f_check. rewrite !andb_true_iff. intros [[[[[[[K1 K2] K3] K4] K5] K6] K7] K8]. rewrite forallb_forall in K1, K2, K3, K4, K5, K6, K7, K8.
  assert (J1 : forall r c, In c (f_tr r) -> (cr_issue c <= cr_start c <= cr_end c /\ nth (cr_task c) R 0 <= cr_issue c /\ cr_end c <= nth (cr_task c) C 0)%Z /\ cr_job c = 0%nat /\
    exists t q, nth_error info (cr_task c) = Some t /\ In q (ti_requests t) /\ q_res q = r /\ (instants (f_runs r c) (cr_start c) (cr_end c) <= Z.of_N (q_len q))%Z).
  { intros r c H. apply in_f_all in H. specialize (K1 _ H). cbv beta iota in K1. destruct (nth_error info (cr_task c)) as [t|] eqn:E; [|rewrite andb_false_r in K1; discriminate].
    rewrite !andb_true_iff, !Z.leb_le, Nat.eqb_eq in K1. destruct K1 as [[[[[A1 A2] A3] A4] A5] A6]. split; [lia|]. split; [exact A3|]. apply existsb_exists in A6. destruct A6 as [q [Q1 Q2]].
    rewrite andb_true_iff, Nat.eqb_eq, Z.leb_le in Q2. exists t, q. tauto. }
  assert (J4 : forall r s a b, In a (f_tr r) -> In b (f_tr s) ->
    ((r, a) <> (s, b) -> cr_task a = cr_task b -> apart a b) /\ (f_stamp r a < f_stamp s b -> cr_issue a <= cr_issue b)%Z /\
    (r = s -> a <> b -> (f_stamp r a < f_stamp r b /\ cr_end a <= cr_start b) \/ (f_stamp r b < f_stamp r a /\ cr_end b <= cr_start a))%Z).
  { intros r s a b A B. specialize (K4 _ (proj2 (in_f_all r a) A)). rewrite forallb_forall in K4. specialize (K4 _ (proj2 (in_f_all s b) B)). cbv beta iota in K4.
    rewrite !andb_true_iff, !orb_true_iff, !negb_true_iff, !andb_true_iff, Z.ltb_ge, !Z.ltb_lt, !Z.leb_le, !Nat.eqb_neq, !Nat.eqb_eq, !creq_eqb_eq in K4. unfold apartb in K4. rewrite orb_true_iff, !Z.leb_le in K4. unfold apart.
    destruct K4 as [[X1 X2] X3]. split; [|split].
    - intros NE E. destruct X1 as [[[X Y]|X]|X]; [subst; congruence|congruence|exact X].
    - intros L. destruct X2 as [X|X]; [lia|exact X].
    - intros -> NE. destruct X3 as [[[X|X]|X]|X]; [congruence|congruence|left; exact X|right; exact X]. }
  assert (PEN : forall i k t, pending f_rel f_comp i k t -> k = 0%nat /\ (nth i R 0 <= t < nth i C 0)%Z).
  { intros i [|k] t H; unfold pending, f_comp, f_rel in H; [split; [reflexivity|lia]|]. unfold f_rel in H. lia. }
  assert (SUS : forall i t, f_susp i t = true <-> suspended f_tr i 0 t).
  { intros i t. unfold f_susp, suspended. rewrite existsb_exists. split.
    - intros [[r b] [H1 H2]]. apply in_f_all in H1. cbn [snd] in H2. rewrite !andb_true_iff, Nat.eqb_eq, Z.leb_le, Z.ltb_lt in H2. exists r, b. pose proof (J1 r b H1). tauto.
    - intros [r [b [H1 [H2 [H3 H4]]]]]. exists (r, b). split; [apply in_f_all; exact H1|]. cbn [snd]. rewrite !andb_true_iff, Nat.eqb_eq, Z.leb_le, Z.ltb_lt. tauto. }
  constructor.
  - intros r. constructor.
    + intros c H. apply (J1 r c H).
    + intros c H. apply (J1 r c H).
    + intros i k t q H1 H2 H3. subst r. destruct k as [|k].
      * assert (L : (i < length info)%nat) by (apply nth_error_Some; congruence). specialize (K2 i ltac:(apply in_seq; lia)). cbv beta in K2. rewrite H1, forallb_forall in K2. apply N.leb_le, K2, H2.
      * assert (E : filter (is_job i (S k)) (f_tr (q_res q)) = []); [|rewrite E; cbn; lia]. destruct (filter (is_job i (S k)) (f_tr (q_res q))) as [|c l] eqn:E; [reflexivity|].
        assert (X : In c (filter (is_job i (S k)) (f_tr (q_res q)))) by (rewrite E; left; reflexivity). apply filter_In in X. destruct X as [X Y]. destruct (J1 _ _ X) as [_ [J _]]. unfold is_job in Y. rewrite J, andb_false_r in Y. discriminate.
    + intros c H. destruct (J1 r c H) as [J2 [J3 _]]. rewrite J3. unfold f_comp, f_rel. lia.
    + assert (G : forall l, NoDup l -> (forall c, In c l -> In c (f_tr r)) -> ForallOrdPairs (fun a b => cr_task a = cr_task b -> apart a b) l).
      { induction l as [|a l IH]; intros ND H; [constructor|]. inversion ND; subst. constructor; [|apply IH; [assumption|intros; apply H; right; assumption]].
        apply Forall_forall. intros b Hb E. apply (J4 r r a b (H a (or_introl eq_refl)) (H b (or_intror Hb))); [|exact E]. intros X. injection X as ->. contradiction. }
      apply G; [|auto]. unfold f_tr. destruct (Nat.lt_ge_cases r (length trl)) as [L|L]; [|rewrite nth_overflow by exact L; constructor]. apply distinct_nodup, K3, nth_In, L.
  - intros p t j l H. destruct (f_sched_some _ _ _ _ H) as [-> [H1 [H2 H3]]]. specialize (K5 p ltac:(apply in_seq; lia)). rewrite forallb_forall in K5. specialize (K5 (Z.to_nat t) ltac:(apply in_seq; lia)). cbv beta in K5.
    rewrite Z2Nat.id in K5 by exact H1. rewrite H in K5. unfold f_pending in K5. rewrite !andb_true_iff, Nat.eqb_eq, Z.leb_le, Z.ltb_lt, negb_true_iff in K5. split; [apply K5|]. split; [unfold pending, f_comp, f_rel; lia|].
    intros X. apply SUS in X. destruct K5 as [_ K5]. congruence.
  - intros r. unfold f_tr. destruct (Nat.lt_ge_cases r (length trl)) as [L|L]; [|rewrite nth_overflow by exact L; constructor]. apply distinct_nodup, K3, nth_In, L.
  - intros r s a b A B NE E. apply (J4 r s a b A B); assumption.
  - intros r s a b A B. apply (J4 r s a b A B).
  - intros r a b A B NE. apply (J4 r r a b A B); [reflexivity|exact NE].
  - intros r b t B T. specialize (K6 _ (proj2 (in_f_all r b) B)). cbv beta iota in K6. rewrite forallb_forall in K6. specialize (K6 t (proj2 (in_zrange _ _ _) T)). cbv beta in K6. apply existsb_exists in K6. destruct K6 as [a [A1 A2]].
    rewrite !andb_true_iff, Z.leb_le, !Z.ltb_lt in A2. exists a. tauto.
  - intros r a t A T. specialize (K7 _ (proj2 (in_f_all r a) A)). cbv beta iota in K7. rewrite forallb_forall in K7. specialize (K7 t (proj2 (in_zrange _ _ _) T)). cbv beta in K7. apply existsb_exists in K7. destruct K7 as [[s c] [C1 C2]].
    rewrite !andb_true_iff, orb_true_iff, andb_true_iff, Nat.eqb_eq, Z.leb_le in C2. apply in_f_all in C1. exists s, c. unfold f_runs in C2. tauto.
  - intros i k tsk t H1 H2 H3. destruct (PEN _ _ _ H2) as [-> H4]. assert (L : (i < length info)%nat) by (apply nth_error_Some; congruence). specialize (K8 i ltac:(apply in_seq; lia)). cbv beta in K8. rewrite H1, andb_true_iff in K8. destruct K8 as [K8 _].
    rewrite forallb_forall in K8. specialize (K8 t (proj2 (in_zrange _ _ _) H4)). apply orb_true_iff in K8. destruct K8 as [K8|K8]; [exfalso; apply H3, SUS, K8|].
    destruct (f_sched (ti_cluster tsk) t) as [[j l]|] eqn:E; [|discriminate]. exists j, l. split; [reflexivity|]. destruct (f_sched_some _ _ _ _ E) as [-> _]. apply orb_true_iff in K8. rewrite N.leb_le in K8. destruct K8 as [K8|K8]; [left; exact K8|right].
    unfold f_holds in K8. apply existsb_exists in K8. destruct K8 as [[r b] [B1 B2]]. apply in_f_all in B1. cbn [snd] in B2. rewrite !andb_true_iff, Nat.eqb_eq, Z.leb_le, Z.ltb_lt in B2. exists r, b. pose proof (J1 r b B1). tauto.
  - intros i k tsk r a H1 A CP PR H2 H3. destruct (PEN _ _ _ H2) as [-> H4]. assert (L : (i < length info)%nat) by (apply nth_error_Some; congruence). specialize (K8 i ltac:(apply in_seq; lia)). cbv beta in K8. rewrite H1, andb_true_iff in K8. destruct K8 as [_ K8].
    rewrite forallb_forall in K8. specialize (K8 _ (proj2 (in_f_all r a) A)). cbv beta iota in K8. rewrite CP, Nat.eqb_refl in K8. rewrite (proj2 (N.ltb_lt _ _) PR) in K8. cbn [negb orb] in K8.
    unfold f_pending in K8. rewrite (proj2 (Z.leb_le _ _) (proj1 H4)), (proj2 (Z.ltb_lt _ _) (proj2 H4)) in K8. cbn [andb negb orb] in K8. destruct (f_susp i (cr_issue a - 1)) eqn:S; [exfalso; apply H3, SUS, S|].
    cbn [orb] in K8. apply orb_true_iff in K8. rewrite Z.eqb_eq in K8. destruct K8 as [K8|K8]; [left; exact K8|right]. apply existsb_exists in K8. destruct K8 as [[s b] [B1 B2]]. apply in_f_all in B1.
    rewrite !andb_true_iff, Nat.eqb_eq, Z.eqb_eq, !Z.ltb_lt in B2. exists s, b. pose proof (J1 s b B1). tauto.
Qed.

Lemma f_sporadic : (forall t, In t info -> Z.of_N (ti_period t) <= P /\ nth (ti_id t) R 0 <= nth (ti_id t) C 0 <= nth (ti_id t) R 0 + Z.of_N (ti_response t))%Z ->
  forall t, In t info -> sporadic_jobs (ti_period t) (ti_response t) (f_rel (ti_id t)) (f_comp (ti_id t)).
Proof. intros H t Ht. specialize (H t Ht). split; intros k; [unfold f_rel; lia|]. destruct k; unfold f_comp, f_rel; lia. Qed.

Definition f_blocked (i : nat) (tsk : taskinfo) (t : Z) : bool :=
  f_pending i t && match f_sched (ti_cluster tsk) t with Some (j, _) => ti_prio tsk <? tprio info j | None => true end.
Definition f_remote (i : nat) (t : Z) : bool :=
  existsb (fun rb => Nat.eqb (cr_task (snd rb)) i && Nat.eqb (cr_job (snd rb)) 0 && (cr_issue (snd rb) <=? t)%Z && (t <? cr_start (snd rb))%Z &&
    existsb (fun h => (cr_start h <=? t)%Z && (t <? cr_end h)%Z && negb (Nat.eqb (tcpu info (cr_task h)) (tcpu info i))) (f_tr (fst rb))) f_all.
Lemma f_blocked_sound i tsk t : nth_error info i = Some tsk -> f_blocked i tsk t = true -> pi_blocked info f_rel f_comp f_sched i 0 t.
Proof.
  intros H. unfold f_blocked, f_pending. rewrite !andb_true_iff, Z.leb_le, Z.ltb_lt. intros [H1 H2]. exists tsk. split; [exact H|]. split; [unfold pending, f_rel, f_comp; lia|]. intros j l E. rewrite E in H2. apply N.ltb_lt. exact H2.
Qed.
Lemma f_remote_spec i t : f_remote i t = true <-> waits_for_remote info f_tr i 0 t.
Proof.
  unfold f_remote, waits_for_remote. rewrite existsb_exists. split.
  - intros [[r b] [H1 H2]]. apply in_f_all in H1. cbn [fst snd] in H2. rewrite !andb_true_iff, !Nat.eqb_eq, Z.leb_le, Z.ltb_lt, existsb_exists in H2. destruct H2 as [H2 [h [X1 X2]]].
    rewrite !andb_true_iff, Z.leb_le, Z.ltb_lt, negb_true_iff, Nat.eqb_neq in X2. exists r, b, h. tauto.
  - intros [r [b [h [B1 [B2 [B3 [B4 [H1 [H2 H3]]]]]]]]]. exists (r, b). split; [apply in_f_all; exact B1|]. cbn [fst snd]. rewrite !andb_true_iff, !Nat.eqb_eq, Z.leb_le, Z.ltb_lt, existsb_exists. split; [tauto|].
    exists h. rewrite !andb_true_iff, Z.leb_le, Z.ltb_lt, negb_true_iff, Nat.eqb_neq. tauto.
Qed.
End Finite.

(** ** A job with one remote and two local blocking requests *)
Definition ex_info : list taskinfo :=
  [TI 0 0 100 100 20 0 10 [Req 0 1 1 false]; TI 1 1 100 100 20 0 10 [Req 1 2 6 false]; TI 2 2 100 100 20 1 10 [Req 0 1 5 false]].
Definition ex_trace : list (list creq) :=
  [[CReq 2 0 0 3 3 8; CReq 0 0 0 4 8 9]; [CReq 1 0 0 0 0 3; CReq 1 0 1 4 4 11]].
Definition ex_tab : list (list (option nat)) :=
  [map Some [1; 1; 1; 0; 1; 1; 1; 1; 0; 1; 1; 0]%nat; [None; None; None; Some 2; Some 2; Some 2; Some 2; Some 2]%nat].
Definition ex_R : list Z := [1; 0; 3]%Z.
Definition ex_C : list Z := [12; 11; 8]%Z.

Example C64_case : forall np, let rel := f_rel 100 ex_R in let comp := f_comp 100 ex_R ex_C in let sched := f_sched ex_tab in let tr := f_tr ex_trace in
  wf_info ex_info /\ (forall t, In t ex_info -> sporadic_jobs (ti_period t) (ti_response t) (rel (ti_id t)) (comp (ti_id t))) /\
  fmlpp_execution ex_info np rel comp sched f_stamp tr /\ numbers_fit ex_info (nth 0 ex_info (TI 0 0 0 0 0 0 0 [])) /\
  ~ local_sharing ex_info (nth 0 ex_info (TI 0 0 0 0 0 0 0 [])) /\
  (forall t, In t [4; 5; 6; 7]%Z -> waits_for_remote ex_info tr 0 0 t) /\
  (forall t, In t [1; 2; 9; 10]%Z -> blocked_locally ex_info rel comp sched tr 0 0 t) /\
  map (fun b => (i_len (bb_remote b), i_len (bb_local b))) (part_fmlp_bounds ex_info true) = [(5, 12); (0, 0); (7, 0)] /\
  map (fun b => (i_len (bb_remote b), i_len (bb_local b))) (part_fmlp_bounds ex_info false) = [(10, 12); (0, 0); (13, 0)].
Proof.
  intros np. cbv zeta. split; [split; [reflexivity|]; intros t [<-|[<-|[<-|[]]]]; (split; [reflexivity|]); cbn; repeat constructor; intros []|].
  split; [apply f_sporadic; intros t [<-|[<-|[<-|[]]]]; cbn; lia|]. split; [apply f_check_sound; destruct np; vm_compute; reflexivity|]. split; [vm_compute; discriminate|].
  split; [intros [x [q [q' [[<-|[<-|[<-|[]]]] [H2 [H3 [H4 [H5 H6]]]]]]]]; cbn in H2, H3, H4, H5; [congruence| |discriminate]; destruct H4 as [<-|[]]; destruct H5 as [<-|[]]; discriminate|].
  split; [intros t H; apply f_remote_spec; repeat (destruct H as [<-|H]; [vm_compute; reflexivity|]); destruct H|].
  split; [|split; vm_compute; reflexivity].
  intros t H. split; [apply (f_blocked_sound ex_info 100 ex_R ex_C ex_tab 0 (TI 0 0 100 100 20 0 10 [Req 0 1 1 false]) t eq_refl); repeat (destruct H as [<-|H]; [vm_compute; reflexivity|]); destruct H|].
  rewrite <- f_remote_spec. repeat (destruct H as [<-|H]; [vm_compute; discriminate|]). destruct H.
Qed.

(** ** Non-preemptive critical sections and resources shared on one processor *)
Definition np_info : list taskinfo :=
  [TI 0 0 200 200 70 0 10 [Req 0 1 1 false]; TI 1 1 200 200 70 0 10 [Req 0 1 1 false]; TI 2 2 200 200 70 0 10 [Req 0 1 1 false]; TI 3 3 200 200 70 0 10 [Req 1 3 20 false];
   TI 4 4 200 200 70 1 10 [Req 0 1 4 false]; TI 5 5 200 200 70 2 10 [Req 0 1 1 false]; TI 6 6 200 200 70 3 10 [Req 0 1 1 false]].
Definition np_trace : list (list creq) :=
  [[CReq 4 0 0 0 0 4; CReq 1 0 0 1 4 24; CReq 5 0 1 1 24 25; CReq 2 0 0 2 25 45; CReq 6 0 1 2 45 46; CReq 0 0 0 3 46 66]; [CReq 3 0 1 3 3 23; CReq 3 0 0 24 24 44; CReq 3 0 0 45 45 65]].
Definition np_tab : list (list (option nat)) :=
  [map Some ([1; 2; 0] ++ repeat 3 20 ++ [1] ++ repeat 3 20 ++ [2] ++ repeat 3 20 ++ [0])%nat; map Some [4; 4; 4; 4]%nat; repeat None 24 ++ [Some 5%nat]; repeat None 45 ++ [Some 6%nat]].
Definition np_R : list Z := [2; 0; 1; 3; 0; 1; 2]%Z.
Definition np_C : list Z := [66; 24; 45; 65; 4; 25; 46]%Z.

(** then a job may be delayed by a request of a local task whenever a request
    ahead of it in the queue is local, but only its release and its own requests
    are counted *)
Theorem C64_nonpreemptive_unsafe : exists info rel comp sched stamp tr i k tsk b,
  wf_info info /\ NoDup (map ti_prio info) /\
  (forall t, In t info -> sporadic_jobs (ti_period t) (ti_response t) (rel (ti_id t)) (comp (ti_id t))) /\
  fmlpp_execution info true rel comp sched stamp tr /\ nth_error info i = Some tsk /\ numbers_fit info tsk /\
  nth_error (part_fmlp_bounds info false) i = Some b /\
  ~ at_most (i_len (bb_local b)) (blocked_locally info rel comp sched tr i k) /\ ~ at_most (i_len (bb_block b)) (pi_blocked info rel comp sched i k).
Proof.
  exists np_info, (f_rel 200 np_R), (f_comp 200 np_R np_C), (f_sched np_tab), f_stamp, (f_tr np_trace), 0%nat, 0%nat, (TI 0 0 200 200 70 0 10 [Req 0 1 1 false]). eexists.
  split; [split; [reflexivity|]; intros t H; repeat (destruct H as [<-|H]; [split; [reflexivity|cbn; repeat constructor; intros []]|]); destruct H|].
  split; [repeat constructor; cbn; intuition discriminate|].
  split; [apply f_sporadic; intros t H; repeat (destruct H as [<-|H]; [cbn; lia|]); destruct H|]. split; [apply f_check_sound; vm_compute; reflexivity|]. split; [reflexivity|]. split; [vm_compute; discriminate|]. split; [vm_compute; reflexivity|].
  set (BL := fun t => f_blocked np_info np_R np_C np_tab 0 (TI 0 0 200 200 70 0 10 [Req 0 1 1 false]) t).
  assert (ND : forall p, NoDup (filter p (zrange 0 70))).
  { intros p. apply NoDup_filter. unfold zrange. apply FinFun.Injective_map_NoDup; [intros a b; lia|apply seq_NoDup]. }
  split; intros A.
  - specialize (A (filter (fun t => BL t && negb (f_remote np_info np_trace 0 t)) (zrange 0 70)) (ND _)).
    assert (L : length (filter (fun t => BL t && negb (f_remote np_info np_trace 0 t)) (zrange 0 70)) = 59%nat) by (vm_compute; reflexivity). rewrite L in A. cbn [bb_local i_len] in A.
    assert (Y : (N.of_nat 59 <= 42)%N); [|lia]. apply A. intros t Ht. apply filter_In in Ht. destruct Ht as [_ Ht]. apply andb_true_iff in Ht. rewrite negb_true_iff in Ht. split; [eapply f_blocked_sound; [reflexivity|apply Ht]|].
    rewrite <- f_remote_spec. intros Z. destruct Ht as [_ Ht]. unfold f_tr in Ht. congruence.
  - specialize (A (filter BL (zrange 0 70)) (ND _)). assert (L : length (filter BL (zrange 0 70)) = 62%nat) by (vm_compute; reflexivity). rewrite L in A. cbn [bb_block i_len] in A.
    assert (Y : (N.of_nat 62 <= 54)%N); [|lia]. apply A. intros t Ht. apply filter_In in Ht. eapply f_blocked_sound; [reflexivity|apply Ht].
Qed.
Print Assumptions C64_nonpreemptive_unsafe.
