(** C63: the classic DPCP bounds. *)
From Coq Require Import NArith ZArith List Bool Lia Arith.
From Verif Require Import ModelLocking ModelDPCP SpecLocking SpecQueue SpecDPCP ProofLocking ProofSpin ProofQueue ProofBlame ProofDPCP.
Import ListNotations.
Open Scope N_scope.

Lemma dpcp_result info loc i tsk : nth_error info i = Some tsk ->
  let per_cpu := map sort_by_request_length (split_by_locality info loc) in
  let remote := dpcp_remote_bound tsk loc (get_priority_ceilings info) per_cpu in
  let local := dpcp_local_bound tsk (nth (ti_cluster tsk) per_cpu []) in
  nth_error (dpcp_bounds info loc) i = Some (BB (iadd remote local) inter0 inter0 remote local).
Proof. intros H per_cpu remote local. unfold dpcp_bounds. cbv zeta. rewrite (map_nth_error _ _ _ H). reflexivity. Qed.

(** the processors that serve the resources are those of the locality object *)
Theorem C63_assign : forall loc r p s, cpu_of (assign_resource r p loc) s = if Nat.eqb s r then Some p else cpu_of loc s.
Proof.
  intros loc r p. revert loc. unfold cpu_of. induction r as [|r IH]; intros [|x l] [|s]; cbn [assign_resource nth Nat.eqb]; try reflexivity.
  - destruct s; reflexivity.
  - rewrite IH. destruct (Nat.eqb s r); [reflexivity|]. destruct s; reflexivity.
  - apply IH.
Qed.
Print Assumptions C63_assign.

(** the vectors are long enough for the indices used *)
Theorem C63_indices_valid : forall info loc t q, In t info -> In q (ti_requests t) ->
  (ti_cluster t < length (split_by_locality info loc))%nat /\ (q_res q < length (get_priority_ceilings info))%nat /\
    (forall p, cpu_of loc (q_res q) = Some p -> (p < length (split_by_locality info loc))%nat).
Proof.
  intros info loc t q Ht Hq.
  assert (INNER : forall t qs v, (length v <= length (fold_left (locality_step loc t) qs v))%nat /\
    forall q p, In q qs -> cpu_of loc (q_res q) = Some p -> (p < length (fold_left (locality_step loc t) qs v))%nat).
  { clear. intros t. induction qs as [|x r IH]; intros v; cbn [fold_left]; [split; [lia|intros q p []]|]. destruct (IH (locality_step loc t v x)) as [I1 I2].
    unfold locality_step in I1 at 1. split.
    - destruct (cpu_of loc (q_res x)); [rewrite push_at_length in I1; lia|exact I1].
    - intros q p [<-|H] E; [|apply (I2 q p H E)]. rewrite E in I1. rewrite push_at_length in I1. lia. }
  assert (OUTER : forall l v, (length v <= length (fold_left (fun per_cluster t => fold_left (locality_step loc t) (ti_requests t) (grow (ti_cluster t) per_cluster)) l v))%nat /\
    forall t, In t l -> (ti_cluster t < length (fold_left (fun per_cluster t => fold_left (locality_step loc t) (ti_requests t) (grow (ti_cluster t) per_cluster)) l v))%nat /\
    forall q p, In q (ti_requests t) -> cpu_of loc (q_res q) = Some p -> (p < length (fold_left (fun per_cluster t => fold_left (locality_step loc t) (ti_requests t) (grow (ti_cluster t) per_cluster)) l v))%nat).
  { clear - INNER. induction l as [|x r IH]; intros v; cbn [fold_left]; [split; [lia|intros t []]|]. destruct (INNER x (ti_requests x) (grow (ti_cluster x) v)) as [N1 N2].
    destruct (IH (fold_left (locality_step loc x) (ti_requests x) (grow (ti_cluster x) v))) as [I1 I2]. rewrite grow_length in N1. split; [lia|].
    intros t [<-|H]; [|apply (I2 t H)]. split; [lia|]. intros q p Hq E. specialize (N2 q p Hq E). lia. }
  destruct (OUTER info []) as [_ O]. destruct (O t Ht) as [O1 O2]. split; [exact O1|]. split; [|intros p E; apply (O2 q p Hq E)].
  unfold get_priority_ceilings. rewrite map_length. unfold split_by_resource. apply (proj2 (split_length rb_res (all_requests info) []) (RB t q)). apply in_all_requests. split; assumption.
Qed.
Print Assumptions C63_indices_valid.

(** waiting for requests to other processors *)
Theorem C63_remote_safe : forall info loc rel comp exec tr i k tsk,
  wf_info info -> NoDup (map ti_prio info) ->
  (forall t, In t info -> sporadic_jobs (ti_period t) (ti_response t) (rel (ti_id t)) (comp (ti_id t))) ->
  dpcp_execution info (cpu_of loc) rel comp exec tr -> nth_error info i = Some tsk ->
  exists b, nth_error (dpcp_bounds info loc) i = Some b /\
  at_most (i_len (bb_remote b)) (waits_remotely info (cpu_of loc) exec tr i k).
Proof.
  intros info loc rel comp exec tr i k tsk W UP SJ EX Hi. eexists. split; [apply dpcp_result; exact Hi|]. cbn [bb_remote].
  destruct (wf_nth info i tsk W Hi) as [<- Hin]. intros ts ND H. apply (remote_safe info loc rel comp exec tr W SJ EX UP tsk k Hin ts ND H).
Qed.
Print Assumptions C63_remote_safe.

(** agents on the processor of the job *)
Theorem C63_local_safe : forall info loc rel comp exec tr i k tsk,
  wf_info info ->
  (forall t, In t info -> sporadic_jobs (ti_period t) (ti_response t) (rel (ti_id t)) (comp (ti_id t))) ->
  dpcp_execution info (cpu_of loc) rel comp exec tr -> nth_error info i = Some tsk ->
  exists b, nth_error (dpcp_bounds info loc) i = Some b /\
  at_most (i_len (bb_local b)) (displaced info (cpu_of loc) rel comp exec tr i k).
Proof.
  intros info loc rel comp exec tr i k tsk W SJ EX Hi. eexists. split; [apply dpcp_result; exact Hi|]. cbn [bb_local].
  destruct (wf_nth info i tsk W Hi) as [<- Hin]. intros ts ND H. apply (local_safe info loc rel comp exec tr W SJ EX tsk k Hin ts ND H).
Qed.
Print Assumptions C63_local_safe.

(** all delays: the job waits for any of its requests, or its processor serves others *)
Theorem C63_total_safe : forall info loc rel comp exec tr i k tsk,
  wf_info info -> NoDup (map ti_prio info) ->
  (forall t, In t info -> sporadic_jobs (ti_period t) (ti_response t) (rel (ti_id t)) (comp (ti_id t))) ->
  dpcp_execution info (cpu_of loc) rel comp exec tr -> nth_error info i = Some tsk ->
  (forall q, In q (ti_requests tsk) -> cpu_of loc (q_res q) <> None) ->
  exists b, nth_error (dpcp_bounds info loc) i = Some b /\
  at_most (i_len (bb_block b)) (fun t => waits exec tr i k t \/ displaced info (cpu_of loc) rel comp exec tr i k t).
Proof.
  intros info loc rel comp exec tr i k tsk W UP SJ EX Hi AS. eexists. split; [apply dpcp_result; exact Hi|]. cbn [bb_block iadd i_len].
  destruct (wf_nth info i tsk W Hi) as [Ei Hin]. subst i. intros ts ND H. set (LR := dp_requests _ _ _ _ _ _ EX).
  set (own := concat (map (fun q => map (pair (q_res q)) (filter (is_job (ti_id tsk) k) (tr (q_res q)))) (ti_requests tsk))).
  set (wr := fun t => existsb (fun sb => negb (on_cpu loc (ti_cluster tsk) (fst sb)) && ((cr_issue (snd sb) <=? t)%Z && (t <? cr_end (snd sb))%Z && negb (exec (fst sb) (snd sb) t))) own).
  assert (OWN : forall r b, In (r, b) own <-> In b (tr r) /\ cr_task b = ti_id tsk /\ cr_job b = k).
  { intros r b. unfold own. rewrite in_concat. split.
    - intros [l [H1 H2]]. apply in_map_iff in H1. destruct H1 as [q [<- Hq]]. apply in_map_iff in H2. destruct H2 as [b' [E Hb]]. injection E as <- <-. apply filter_In in Hb.
      destruct Hb as [B1 B2]. unfold is_job in B2. apply andb_true_iff in B2. rewrite !Nat.eqb_eq in B2. tauto.
    - intros [H1 [H2 H3]]. destruct (source info rel comp exec tr W LR r b H1) as [rb [R1 [R2 [R3 R4]]]]. apply in_all_requests in R1. destruct R1 as [R1 R5].
      assert (E : rb_task rb = tsk) by (apply (info_inj info W); [exact R1|exact Hin|congruence]). exists (map (pair r) (filter (is_job (ti_id tsk) k) (tr r))). split.
      + apply in_map_iff. exists (rb_req rb). unfold rb_res in R3. rewrite R3. split; [reflexivity|]. rewrite <- E. exact R5.
      + apply in_map. apply filter_In. split; [exact H1|]. unfold is_job. rewrite H2, H3, !Nat.eqb_refl. reflexivity. }
  assert (RES : forall r b, In b (tr r) -> cr_task b = ti_id tsk -> exists p, cpu_of loc r = Some p).
  { intros r b H1 H2. destruct (source info rel comp exec tr W LR r b H1) as [rb [R1 [R2 [R3 R4]]]]. apply in_all_requests in R1. destruct R1 as [R1 R5].
    assert (E : rb_task rb = tsk) by (apply (info_inj info W); [exact R1|exact Hin|congruence]). rewrite E in R5. specialize (AS _ R5). fold (rb_res rb) in AS. rewrite R3 in AS. destruct (cpu_of loc r) as [p|]; [exists p; reflexivity|congruence]. }
  assert (SPLIT : length ts = (length (filter wr ts) + length (filter (fun t => negb (wr t)) ts))%nat).
  { clear. induction ts as [|t r IH]; [reflexivity|]. cbn [filter]. destruct (wr t); cbn [negb length]; lia. }
  assert (R := remote_safe info loc rel comp exec tr W SJ EX UP tsk k Hin (filter wr ts) (NoDup_filter _ ND)).
  assert (L := local_safe info loc rel comp exec tr W SJ EX tsk k Hin (filter (fun t => negb (wr t)) ts) (NoDup_filter _ ND)).
  rewrite SPLIT, Nat2N.inj_add. apply N.add_le_mono; [apply R|apply L].
  - intros t Ht. apply filter_In in Ht. destruct Ht as [_ Ht]. unfold wr in Ht. apply existsb_exists in Ht. destruct Ht as [[s b] [B1 B2]]. cbn [fst snd] in B2.
    rewrite !andb_true_iff, Z.leb_le, Z.ltb_lt, !negb_true_iff in B2. apply OWN in B1. destruct B1 as [B1 [B3 B4]]. destruct (RES s b B1 B3) as [p Hp]. exists tsk, p, s, b.
    repeat split; try tauto. intros ->. destruct B2 as [B2 _]. unfold on_cpu in B2. rewrite Hp, Nat.eqb_refl in B2. discriminate.
  - intros t Ht. apply filter_In in Ht. destruct Ht as [Ht1 Ht2]. apply negb_true_iff in Ht2. destruct (H t Ht1) as [[s [b [B1 [B2 [B3 [B4 B5]]]]]]|D]; [|exact D].
    assert (LC : cpu_of loc s = Some (ti_cluster tsk)).
    { destruct (on_cpu loc (ti_cluster tsk) s) eqn:O; [apply on_cpu_true; exact O|exfalso]. apply not_true_iff_false in Ht2. apply Ht2. unfold wr. apply existsb_exists. exists (s, b). split; [apply OWN; auto|].
      cbn [fst snd]. rewrite O, B5. unfold outstanding in B4. cbn [negb andb]. rewrite andb_true_r, andb_true_iff, Z.leb_le, Z.ltb_lt. exact B4. }
    destruct (dp_progress _ _ _ _ _ _ EX (ti_cluster tsk) s b t B1 LC B4 B5) as [r [a [A [Pr [E _]]]]].
    exists tsk, r, a. split; [exact Hi|]. destruct (lr_job _ _ _ _ _ _ (LR s) b B1) as [J1 J2]. rewrite B2, B3 in J1, J2. unfold outstanding in B4. split; [lia|]. split; [exact A|]. split; [|split; assumption].
    intros C. assert (NE : (r, a) <> (s, b)) by (intros X; injection X as -> ->; congruence). assert (HA := dp_exec _ _ _ _ _ _ EX r a t A E).
    pose proof (lr_times _ _ _ _ _ _ (LR r) a A) as TA. destruct (dp_sequential _ _ _ _ _ _ EX r s a b A B1 NE ltac:(congruence)) as [X|X]; lia.
Qed.
Print Assumptions C63_total_safe.

(** ** A system with three processors and one resource *)
Definition ex_task (i : nat) (p len : N) : taskinfo := TI i p 100 100 20 i 10 [Req 0 1 len false].
Definition ex_info (p0 p1 p2 : N) : list taskinfo := [ex_task 0 p0 2; ex_task 1 p1 3; ex_task 2 p2 4].
Definition ex_rel (i k : nat) : Z := (100 * Z.of_nat k)%Z.
Definition ex_comp (i k : nat) : Z := (100 * Z.of_nat k + 20)%Z.
Definition ex_trace (r : nat) : list creq := match r with O => [CReq 2 0 2 0 0 4; CReq 0 0 0 1 4 6; CReq 1 0 1 1 6 9] | S _ => [] end.
Definition ex_exec (r : nat) (c : creq) (t : Z) : bool := (cr_start c <=? t)%Z && (t <? cr_end c)%Z.

Lemma ex_wf p0 p1 p2 : wf_info (ex_info p0 p1 p2).
Proof. split; [reflexivity|]. intros t [<-|[<-|[<-|[]]]]; (split; [reflexivity|]); cbn; repeat constructor; intros []. Qed.

Lemma ex_sporadic p0 p1 p2 t : In t (ex_info p0 p1 p2) -> sporadic_jobs (ti_period t) (ti_response t) (ex_rel (ti_id t)) (ex_comp (ti_id t)).
Proof. intros [<-|[<-|[<-|[]]]]; (split; intros k; unfold ex_rel, ex_comp; cbn [ti_period ti_response ex_task]; lia). Qed.

Ltac ex_cases H := cbn in H; repeat (destruct H as [<-|H]; [|]); try (destruct H).

Lemma ex_execution p0 p1 p2 (place : nat -> option nat) : (p0 <= p1)%N -> (p1 <= p2)%N -> dpcp_execution (ex_info p0 p1 p2) place ex_rel ex_comp ex_exec ex_trace.
Proof.
  intros P1 P2. constructor.
  - intros [|r]; [|constructor; cbn [ex_trace]; try (intros c []); try (intros; cbn; lia); try constructor].
    constructor; cbn [ex_trace].
    + intros c H. ex_cases H; cbn; lia.
    + intros c H. ex_cases H; [exists (ex_task 2 p2 4), (Req 0 1 4 false)|exists (ex_task 0 p0 2), (Req 0 1 2 false)|exists (ex_task 1 p1 3), (Req 0 1 3 false)];
        (split; [reflexivity|]; split; [left; reflexivity|]; split; [reflexivity|vm_compute; discriminate]).
    + intros i k t q H1 H2 _. destruct i as [|[|[|i]]]; [| | |destruct i; discriminate]; cbn in H1; injection H1 as <-; destruct H2 as [<-|[]]; destruct k as [|k]; cbn; lia.
    + intros c H. ex_cases H; cbn; lia.
    + repeat (constructor; [repeat (constructor; [cbn; discriminate|]); constructor|]). constructor.
  - intros [|r]; cbn; [|constructor]. constructor; [cbn; intros [H|[H|[]]]; discriminate|]. constructor; [cbn; intros [H|[]]; discriminate|]. constructor; [intros []|constructor].
  - intros [|r] [|s] a b H1 H2 NE E; try exact (False_ind _ H1); try exact (False_ind _ H2); cbn in H1, H2.
    all: ex_cases H1; ex_cases H2; cbn in E; try discriminate; exfalso; apply NE; reflexivity.
  - intros r a t _ H. unfold ex_exec in H. apply andb_true_iff in H. rewrite Z.leb_le, Z.ltb_lt in H. exact H.
  - intros p [|r] [|s] a b t H1 H2 _ _ E1 E2; try exact (False_ind _ H1); try exact (False_ind _ H2).
    unfold ex_exec in E1, E2. rewrite andb_true_iff, Z.leb_le, Z.ltb_lt in E1, E2. ex_cases H1; ex_cases H2; cbn in E1, E2; try reflexivity; lia.
  - intros p [|r] [|s] a b H1 H2 _ _ NE L1 L2; try exact (False_ind _ H1); try exact (False_ind _ H2). ex_cases H1; ex_cases H2; cbn in L1, L2; try lia; exfalso; apply NE; reflexivity.
  - intros p [|r] [|s] a b H1 H2 _ _ L; try exact (False_ind _ H1); try exact (False_ind _ H2). ex_cases H1; ex_cases H2; cbn in L; try lia; cbn; assumption.
  - intros p [|s] b t H Pl O E; [|destruct H]. unfold outstanding in O. unfold ex_exec in E. apply andb_false_iff in E. rewrite Z.leb_gt, Z.ltb_ge in E.
    assert (X : forall c u, (cr_start c <= u < cr_end c)%Z -> ex_exec 0 c u = true) by (intros c u Hu; unfold ex_exec; rewrite andb_true_iff, Z.leb_le, Z.ltb_lt; exact Hu).
    ex_cases H; cbn in O, E.
    + lia.
    + exists 0%nat, (CReq 2 0 2 0 0 4). split; [left; reflexivity|]. split; [exact Pl|]. split; [apply X; cbn; lia|]. right. right.
      exists 0%nat, (CReq 0 0 0 1 4 6). split; [right; left; reflexivity|]. split; [exact Pl|]. split; [cbn; lia|]. split; [reflexivity|].
      exists (ex_task 0 p0 2), (Req 0 1 2 false). cbn. repeat split; auto. lia.
    + destruct (Z.lt_ge_cases t 4) as [T|T].
      * exists 0%nat, (CReq 2 0 2 0 0 4). split; [left; reflexivity|]. split; [exact Pl|]. split; [apply X; cbn; lia|]. right. right.
        exists 0%nat, (CReq 1 0 1 1 6 9). split; [right; right; left; reflexivity|]. split; [exact Pl|]. split; [cbn; lia|]. split; [reflexivity|].
        exists (ex_task 1 p1 3), (Req 0 1 3 false). cbn. repeat split; auto. lia.
      * exists 0%nat, (CReq 0 0 0 1 4 6). split; [right; left; reflexivity|]. split; [exact Pl|]. split; [apply X; cbn; lia|]. cbn.
        destruct (N.eq_dec p0 p1) as [Q|Q]; [right; left; split; [exact Q|lia]|left; lia].
Qed.

(** the middle task waits for 5 units and its remote bound is 6; the requests of
    the others occupy the third processor for 5 units, which is the local bound there *)
Example C63_case : let info := ex_info 0 1 2 in let loc := assign_resource 0 2 [] in
  wf_info info /\ NoDup (map ti_prio info) /\
  (forall t, In t info -> sporadic_jobs (ti_period t) (ti_response t) (ex_rel (ti_id t)) (ex_comp (ti_id t))) /\
  dpcp_execution info (cpu_of loc) ex_rel ex_comp ex_exec ex_trace /\
  (forall t, In t [1; 2; 3; 4; 5]%Z -> waits_remotely info (cpu_of loc) ex_exec ex_trace 1 0 t) /\
  (forall t, In t [4; 5; 6; 7; 8]%Z -> displaced info (cpu_of loc) ex_rel ex_comp ex_exec ex_trace 2 0 t) /\
  map (fun b => (i_len (bb_remote b), i_len (bb_local b))) (dpcp_bounds info loc) = [(4, 0); (6, 0); (0, 5)].
Proof.
  split; [apply ex_wf|]. split; [repeat constructor; cbn; intuition discriminate|]. split; [apply ex_sporadic|]. split; [apply ex_execution; lia|]. split; [|split; [|vm_compute; reflexivity]].
  - intros t H. exists (ex_task 1 1 3), 2%nat, 0%nat, (CReq 1 0 1 1 6 9). split; [reflexivity|]. split; [right; right; left; reflexivity|]. split; [reflexivity|]. split; [reflexivity|]. split; [reflexivity|].
    split; [cbn; discriminate|]. repeat (destruct H as [<-|H]; [split; [unfold outstanding; cbn; lia|reflexivity]|]). destruct H.
  - intros t H. assert (C : (4 <= t < 6 \/ 6 <= t < 9)%Z) by (repeat (destruct H as [<-|H]; [lia|]); destruct H).
    destruct C as [C|C]; [exists (ex_task 2 2 4), 0%nat, (CReq 0 0 0 1 4 6)|exists (ex_task 2 2 4), 0%nat, (CReq 1 0 1 1 6 9)];
      (split; [reflexivity|]; split; [unfold ex_rel, ex_comp; cbn; lia|]; split; [cbn; tauto|]; split; [cbn; discriminate|]; split; [reflexivity|]; unfold ex_exec; rewrite andb_true_iff, Z.leb_le, Z.ltb_lt; cbn; lia).
Qed.

(** without an assigned processor (which the code takes for a dedicated one) a
    resource is not accounted for at all *)
Theorem C63_unassigned_unsafe : exists info rel comp exec tr i k tsk b,
  wf_info info /\ NoDup (map ti_prio info) /\
  (forall t, In t info -> sporadic_jobs (ti_period t) (ti_response t) (rel (ti_id t)) (comp (ti_id t))) /\
  dpcp_execution info (fun _ => Some 7%nat) rel comp exec tr /\ (forall t, In t info -> ti_cluster t <> 7%nat) /\
  nth_error info i = Some tsk /\ nth_error (dpcp_bounds info []) i = Some b /\
  i_len (bb_block b) = 0 /\ ~ at_most (i_len (bb_block b)) (waits exec tr i k).
Proof.
  exists (ex_info 0 1 2), ex_rel, ex_comp, ex_exec, ex_trace, 1%nat, 0%nat, (ex_task 1 1 3). eexists.
  split; [apply ex_wf|]. split; [repeat constructor; cbn; intuition discriminate|]. split; [apply ex_sporadic|]. split; [apply ex_execution; lia|].
  split; [intros t [<-|[<-|[<-|[]]]]; discriminate|]. split; [reflexivity|]. split; [vm_compute; reflexivity|]. split; [reflexivity|].
  intros A. specialize (A [1%Z] ltac:(repeat constructor; intros []) ). assert (X : (N.of_nat (length [1%Z]) <= 0)%N); [|cbn in X; lia]. apply A.
  intros t [<-|[]]. exists 0%nat, (CReq 1 0 1 1 6 9). split; [right; right; left; reflexivity|]. repeat split; cbn; lia.
Qed.
Print Assumptions C63_unassigned_unsafe.

(** tasks of equal priority count as tasks of lower priority, of which only one
    request is charged per request of the job *)
Theorem C63_equal_priorities_unsafe : exists info loc rel comp exec tr i k tsk b,
  wf_info info /\
  (forall t, In t info -> sporadic_jobs (ti_period t) (ti_response t) (rel (ti_id t)) (comp (ti_id t))) /\
  dpcp_execution info (cpu_of loc) rel comp exec tr /\
  nth_error info i = Some tsk /\ nth_error (dpcp_bounds info loc) i = Some b /\
  ~ at_most (i_len (bb_remote b)) (waits_remotely info (cpu_of loc) exec tr i k).
Proof.
  exists (ex_info 1 1 1), (assign_resource 0 2 []), ex_rel, ex_comp, ex_exec, ex_trace, 1%nat, 0%nat, (ex_task 1 1 3). eexists.
  split; [apply ex_wf|]. split; [apply ex_sporadic|]. split; [apply ex_execution; lia|]. split; [reflexivity|]. split; [vm_compute; reflexivity|].
  intros A. specialize (A [1; 2; 3; 4; 5]%Z ltac:(repeat constructor; cbn; intuition discriminate)). cbn in A. assert (X : (5 <= 4)%N); [|lia]. apply A.
  intros t H. exists (ex_task 1 1 3), 2%nat, 0%nat, (CReq 1 0 1 1 6 9). split; [reflexivity|]. split; [right; right; left; reflexivity|]. split; [reflexivity|]. split; [reflexivity|]. split; [reflexivity|].
  split; [cbn; discriminate|]. repeat (destruct H as [<-|H]; [split; [unfold outstanding; cbn; lia|reflexivity]|]). destruct H.
Qed.
Print Assumptions C63_equal_priorities_unsafe.
