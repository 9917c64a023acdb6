(** Safety of the classic DPCP bounds. *)
From Coq Require Import NArith ZArith List Bool Sorted Permutation Lia Arith.
From Verif Require Import ModelLocking ModelDPCP SpecLocking SpecQueue SpecDPCP ProofLocking ProofSpin ProofLockingMono ProofSpinCount ProofQueue ProofBlame.
Import ListNotations.
Open Scope N_scope.

(** * Splitting by processor *)
Lemma grow_nth {A} n (v : list (list A)) p : nth p (grow n v) [] = nth p v [].
Proof.
  unfold grow. destruct (lt_dec p (length v)) as [H|H]; [apply app_nth1; exact H|]. rewrite app_nth2 by lia. rewrite (nth_overflow v) by lia. apply nth_repeat.
Qed.
Lemma grow_length {A} n (v : list (list A)) : length (grow n v) = Nat.max (S n) (length v).
Proof. unfold grow. rewrite app_length, repeat_length. lia. Qed.

Lemma locality_inner loc t p qs : forall v, nth p (fold_left (locality_step loc t) qs v) [] = nth p v [] ++ filter (fun rb => on_cpu loc p (rb_res rb)) (map (RB t) qs).
Proof.
  induction qs as [|q r IH]; intros v; cbn [fold_left map filter]; [rewrite app_nil_r; reflexivity|]. rewrite IH. unfold locality_step, on_cpu, rb_res; cbn [rb_req].
  destruct (cpu_of loc (q_res q)) as [c|]; [|reflexivity]. rewrite push_at_nth, <- app_assoc. destruct (Nat.eqb c p); reflexivity.
Qed.

Definition at_cpu (info : list taskinfo) (loc : locality) (p : nat) : list rbound := filter (fun rb => on_cpu loc p (rb_res rb)) (all_requests info).

Lemma locality_nth info loc p : nth p (split_by_locality info loc) [] = at_cpu info loc p.
Proof.
  unfold split_by_locality, at_cpu.
  assert (G : forall v, nth p (fold_left (fun per_cluster t => fold_left (locality_step loc t) (ti_requests t) (grow (ti_cluster t) per_cluster)) info v) [] =
    nth p v [] ++ filter (fun rb => on_cpu loc p (rb_res rb)) (all_requests info)).
  { induction info as [|t r IH]; intros v; cbn [fold_left]; [cbn; rewrite app_nil_r; reflexivity|].
    rewrite IH, locality_inner, grow_nth, <- app_assoc, <- filter_app. reflexivity. }
  rewrite G. destruct p; reflexivity.
Qed.

Lemma on_cpu_true loc p r : on_cpu loc p r = true <-> cpu_of loc r = Some p.
Proof. unfold on_cpu. destruct (cpu_of loc r) as [c|]; [rewrite Nat.eqb_eq; split; congruence|split; discriminate]. Qed.

Definition cont_at (info : list taskinfo) (loc : locality) (p : nat) : list rbound := sort_by_request_length (at_cpu info loc p).

Lemma per_cpu_nth info loc p : nth p (map sort_by_request_length (split_by_locality info loc)) [] = cont_at info loc p.
Proof. unfold cont_at. change (@nil rbound) with (sort_by_request_length []) at 1. rewrite map_nth, locality_nth. reflexivity. Qed.

Lemma in_cont_at info loc p rb : In rb (cont_at info loc p) <-> In rb (all_requests info) /\ cpu_of loc (rb_res rb) = Some p.
Proof.
  unfold cont_at, sort_by_request_length. rewrite <- on_cpu_true. unfold at_cpu. split.
  - intros H. apply (Permutation_in _ (Permutation_sym (sort_len_perm rb_len _))) in H. apply filter_In in H. exact H.
  - intros H. apply (Permutation_in _ (sort_len_perm rb_len _)). apply filter_In. exact H.
Qed.

(** * The loops as sums *)
Definition is_hp (tsk : taskinfo) (rb : rbound) : bool := negb (Nat.eqb (ti_id (rb_task rb)) (ti_id tsk)) && (ti_prio (rb_task rb) <? ti_prio tsk).
Definition is_lp (tsk : taskinfo) (ceil : list N) (rb : rbound) : bool :=
  negb (Nat.eqb (ti_id (rb_task rb)) (ti_id tsk)) && negb (ti_prio (rb_task rb) <? ti_prio tsk) && (nth (rb_res rb) ceil UNLIMITED <=? ti_prio tsk).
Definition maxn (tsk : taskinfo) (rb : rbound) : N := get_max_num_requests rb (ti_response tsk).

Lemma dpcp_loop_sum tsk ceil cont : forall m inter,
  i_len (dpcp_loop tsk ceil cont m inter) = i_len inter + nsumN (fun rb => if is_hp tsk rb then maxn tsk rb * rb_len rb else 0) cont +
    i_len (greedy (map (fun rb => (0%nat, if is_lp tsk ceil rb then maxn tsk rb else 0, rb_len rb)) cont) m).
Proof.
  induction cont as [|rb r IH]; intros m inter; [cbn; lia|]. cbn [dpcp_loop map greedy nsumN fold_right].
  fold (nsumN (fun rb => if is_hp tsk rb then maxn tsk rb * rb_len rb else 0) r). unfold savail, slen; cbn [fst snd].
  set (lp := is_lp tsk ceil rb). unfold is_lp in lp. unfold is_hp at 1. fold (maxn tsk rb). subst lp.
  destruct (Nat.eqb (ti_id (rb_task rb)) (ti_id tsk)); cbn [negb andb].
  { rewrite IH, !N.min_0_l. cbv zeta. rewrite !N.sub_0_r. cbn [iadd i_len]. lia. }
  destruct (ti_prio (rb_task rb) <? ti_prio tsk); cbn [negb andb].
  { rewrite IH, !N.min_0_l. cbv zeta. rewrite !N.sub_0_r. cbn [iadd i_len]. lia. }
  destruct (nth (rb_res rb) ceil UNLIMITED <=? ti_prio tsk); cbn [negb andb]; rewrite ?andb_true_r, ?andb_false_r.
  2: { rewrite IH, !N.min_0_l. cbv zeta. rewrite !N.sub_0_r. cbn [iadd i_len]. lia. }
  destruct (N.eqb_spec m 0) as [->|NZ]; cbn [negb].
  - rewrite IH, N.min_0_r, !greedy_zero. cbn [iadd i_len inter0]. lia.
  - rewrite IH. cbn [iadd i_len]. lia.
Qed.

Definition remote_term (tsk : taskinfo) (loc : locality) (ceil : list N) (p : nat * list rbound) : N :=
  if negb (Nat.eqb (fst p) (ti_cluster tsk)) && (0 <? count_requests_to_cpu tsk loc (fst p))
  then i_len (bound_blocking_dpcp tsk (snd p) ceil (count_requests_to_cpu tsk loc (fst p))) else 0.

Lemma remote_sum tsk loc ceil per_cpu : i_len (dpcp_remote_bound tsk loc ceil per_cpu) = nsumN (remote_term tsk loc ceil) (combine (seq 0 (length per_cpu)) per_cpu).
Proof.
  unfold dpcp_remote_bound. set (l := combine _ _). assert (G : forall b, i_len (fold_left (fun blocking p => let '(cpu, cs) := p in
    if negb (Nat.eqb cpu (ti_cluster tsk)) then let reqs := count_requests_to_cpu tsk loc cpu in
      if 0 <? reqs then iadd blocking (bound_blocking_dpcp tsk cs ceil reqs) else blocking else blocking) l b) = i_len b + nsumN (remote_term tsk loc ceil) l).
  { induction l as [|[cpu cs] r IH]; intros b; [cbn; lia|]. cbn [fold_left nsumN fold_right]. fold (nsumN (remote_term tsk loc ceil) r). rewrite IH.
    unfold remote_term at 2; cbn [fst snd]. destruct (negb (Nat.eqb cpu (ti_cluster tsk))); cbn [andb]; [|lia].
    cbv zeta. destruct (0 <? count_requests_to_cpu tsk loc cpu); cbn [iadd i_len]; lia. }
  rewrite G. reflexivity.
Qed.

Lemma combine_seq_map {A} (d : A) (l : list A) : combine (seq 0 (length l)) l = map (fun p => (p, nth p l d)) (seq 0 (length l)).
Proof.
  assert (G : forall s, combine (seq s (length l)) l = map (fun p => (p, nth (p - s) l d)) (seq s (length l))).
  { induction l as [|x r IH]; intros s; [reflexivity|]. cbn [length seq combine map]. rewrite Nat.sub_diag. cbn [nth]. f_equal. rewrite IH. apply map_ext_in.
    intros p Hp. apply in_seq in Hp. replace (p - s)%nat with (S (p - S s)) by lia. reflexivity. }
  rewrite G. apply map_ext. intros p. rewrite Nat.sub_0_r. reflexivity.
Qed.

Lemma local_sum tsk cont : i_len (dpcp_local_bound tsk cont) = nsumN (fun rb => if Nat.eqb (ti_id (rb_task rb)) (ti_id tsk) then 0 else maxn tsk rb * rb_len rb) cont.
Proof.
  unfold dpcp_local_bound. set (f := fun (blocking : interf) (req : rbound) => _).
  assert (G : forall b, i_len (fold_left f cont b) = i_len b + nsumN (fun rb => if Nat.eqb (ti_id (rb_task rb)) (ti_id tsk) then 0 else maxn tsk rb * rb_len rb) cont).
  { induction cont as [|rb r IH]; intros b; [cbn; lia|]. cbn [fold_left nsumN fold_right]. fold (nsumN (fun rb => if Nat.eqb (ti_id (rb_task rb)) (ti_id tsk) then 0 else maxn tsk rb * rb_len rb) r).
    rewrite IH. unfold f at 1. destruct (Nat.eqb (ti_id (rb_task rb)) (ti_id tsk)); cbn [negb i_len]; [lia|]. fold (maxn tsk rb). lia. }
  rewrite G. reflexivity.
Qed.

Lemma count_requests_sum tsk loc p : count_requests_to_cpu tsk loc p = nsumN q_num (filter (fun q => on_cpu loc p (q_res q)) (ti_requests tsk)).
Proof.
  unfold count_requests_to_cpu. assert (G : forall l c, fold_left (fun count req => if on_cpu loc p (q_res req) then count + q_num req else count) l c = c + nsumN q_num (filter (fun q => on_cpu loc p (q_res q)) l)).
  { induction l as [|q r IH]; intros c; [cbn; lia|]. cbn [fold_left filter]. rewrite IH. destruct (on_cpu loc p (q_res q)); cbn [nsumN fold_right]; [fold (nsumN q_num (filter (fun q => on_cpu loc p (q_res q)) r)); lia|reflexivity]. }
  rewrite G. reflexivity.
Qed.

(** * Executions *)
Section Exec.
Context (info : list taskinfo) (loc : locality) (rel comp : nat -> nat -> Z) (exec : nat -> creq -> Z -> bool) (tr : nat -> list creq).
Hypothesis W : wf_info info.
Hypothesis SJ : forall t, In t info -> sporadic_jobs (ti_period t) (ti_response t) (rel (ti_id t)) (comp (ti_id t)).
Hypothesis EX : dpcp_execution info (cpu_of loc) rel comp exec tr.
Hypothesis UP : NoDup (map ti_prio info).
Context (tsk : taskinfo) (k : nat).
Hypothesis Htsk : In tsk info.
Let i := ti_id tsk.
Let LR := dp_requests _ _ _ _ _ _ EX.

Lemma tprio_nth j t : nth_error info j = Some t -> tprio info j = ti_prio t.
Proof. intros H. unfold tprio. rewrite H. reflexivity. Qed.

Lemma prio_inj t u : In t info -> In u info -> ti_prio t = ti_prio u -> t = u.
Proof.
  intros H1 H2 E. clear - UP H1 H2 E. induction info as [|x r IH]; [destruct H1|]. cbn [map] in UP. inversion UP as [|y z NI ND]; subst.
  destruct H1 as [->|H1], H2 as [<-|H2]; [reflexivity| | |auto].
  - exfalso. apply NI. rewrite E. apply in_map. exact H2.
  - exfalso. apply NI. rewrite <- E. apply in_map. exact H1.
Qed.

(** the requests of the job to a processor *)
Definition own_at (p : nat) : list (nat * creq) :=
  concat (map (fun q => map (pair (q_res q)) (filter (is_job i k) (tr (q_res q)))) (filter (fun q => on_cpu loc p (q_res q)) (ti_requests tsk))).

Lemma in_own_at p r b : In (r, b) (own_at p) <-> In b (tr r) /\ cr_task b = i /\ cr_job b = k /\ cpu_of loc r = Some p.
Proof.
  unfold own_at. rewrite in_concat. split.
  - intros [l [H1 H2]]. apply in_map_iff in H1. destruct H1 as [q [<- Hq]]. apply filter_In in Hq. destruct Hq as [Q1 Q2]. apply in_map_iff in H2. destruct H2 as [b' [E Hb]].
    injection E as <- <-. apply filter_In in Hb. destruct Hb as [B1 B2]. unfold is_job in B2. apply andb_true_iff in B2. rewrite !Nat.eqb_eq in B2. apply on_cpu_true in Q2. tauto.
  - intros [H1 [H2 [H3 H4]]]. destruct (source info rel comp exec tr W LR r b H1) as [rb [R1 [R2 [R3 R4]]]].
    apply in_all_requests in R1. destruct R1 as [R1 R5]. assert (E : rb_task rb = tsk). { apply (info_inj info W); [exact R1|exact Htsk|]. unfold i in H2. congruence. }
    exists (map (pair r) (filter (is_job i k) (tr r))). split.
    + apply in_map_iff. exists (rb_req rb). unfold rb_res in R3. rewrite R3. split; [reflexivity|]. apply filter_In. rewrite <- E. split; [exact R5|]. rewrite R3. apply on_cpu_true. exact H4.
    + apply in_map. apply filter_In. split; [exact H1|]. unfold is_job. rewrite H2, H3, !Nat.eqb_refl. reflexivity.
Qed.

Lemma own_at_length p : N.of_nat (length (own_at p)) <= count_requests_to_cpu tsk loc p.
Proof.
  rewrite count_requests_sum. unfold own_at. set (qs := filter _ _). assert (Q : forall q, In q qs -> In q (ti_requests tsk)) by (intros q Hq; apply filter_In in Hq; apply Hq).
  clearbody qs. induction qs as [|q r IH]; [cbn; lia|]. cbn [map concat nsumN fold_right]. fold (nsumN q_num r). rewrite app_length, map_length.
  specialize (IH (fun x Hx => Q x (or_intror Hx))).
  assert (B := lr_number _ _ _ _ _ _ (LR (q_res q)) i k tsk q (info_nth info W tsk Htsk) (Q q (or_introl eq_refl)) eq_refl). lia.
Qed.

(** a request executes while another request of the job is outstanding but not served *)
Definition delays (t : Z) (r : nat) (a : creq) (s : nat) (b : creq) : Prop :=
  In a (tr r) /\ In b (tr s) /\ cr_task b = i /\ cr_job b = k /\ exec r a t = true /\ outstanding b t /\ exec s b t = false.

Lemma delays_other t r a s b : delays t r a s b -> cr_task a <> i.
Proof.
  intros [A [B [T [K [E [O N]]]]]] C. assert (NE : (r, a) <> (s, b)) by (intros H; injection H as -> ->; congruence).
  assert (HA := dp_exec _ _ _ _ _ _ EX r a t A E). pose proof (lr_times _ _ _ _ _ _ (LR r) a A) as TA. pose proof (lr_times _ _ _ _ _ _ (LR s) b B) as TB.
  destruct (dp_sequential _ _ _ _ _ _ EX r s a b A B NE ltac:(congruence)) as [H|H]; unfold outstanding in O; lia.
Qed.

Lemma task_of r a : In a (tr r) -> exists u, nth_error info (cr_task a) = Some u /\ In u info /\ ti_id u = cr_task a.
Proof. intros Ha. destruct (source info rel comp exec tr W LR r a Ha) as [rb [H1 [H2 [_ H4]]]]. apply in_all_requests in H1. exists (rb_task rb). tauto. Qed.

Lemma tprio_i : tprio info i = ti_prio tsk.
Proof. apply tprio_nth. apply info_nth; [exact W|exact Htsk]. Qed.

(** what delays the job either has a higher priority or a ceiling that reaches it *)
Lemma delays_kind t p r a s b : delays t r a s b -> cpu_of loc r = Some p -> cpu_of loc s = Some p ->
  (tprio info (cr_task a) < ti_prio tsk)%N \/ ((ti_prio tsk < tprio info (cr_task a))%N /\ ceiling_reaches info r (ti_prio tsk)).
Proof.
  intros D Hr Hs. pose proof (delays_other _ _ _ _ _ D) as NI. destruct D as [A [B [T [K [E [O N]]]]]].
  destruct (dp_progress _ _ _ _ _ _ EX p s b t B Hs O N) as [r' [a' [A' [Hr' [E' C]]]]].
  assert (X := dp_cpu _ _ _ _ _ _ EX p r r' a a' t A A' Hr Hr' E E'). injection X as <- <-. rewrite T, tprio_i in C.
  destruct (task_of r a A) as [u [U1 [U2 U3]]].
  assert (NP : tprio info (cr_task a) <> ti_prio tsk). { rewrite (tprio_nth _ _ U1). intros Q. apply (prio_inj u tsk U2 Htsk) in Q. subst u. unfold i in NI. congruence. }
  destruct C as [C|[[C _]|[v [d [D1 [D2 [D3 [D4 D5]]]]]]]]; [left; exact C|contradiction|].
  destruct (N.lt_ge_cases (tprio info (cr_task a)) (ti_prio tsk)) as [L|L]; [left; exact L|right]. split; [lia|].
  destruct D5 as [w [q [W1 [W2 [W3 W4]]]]]. exists w, q. repeat split; try assumption. lia.
Qed.

(** a request of lower priority that delays the job started before the delayed request *)
Lemma lower_started t p r a s b : delays t r a s b -> cpu_of loc r = Some p -> cpu_of loc s = Some p -> (ti_prio tsk < tprio info (cr_task a))%N ->
  (cr_start a < cr_issue b < cr_end a)%Z \/ (cr_start a < cr_issue b /\ cr_issue b <= t < cr_end a)%Z.
Proof.
  intros D Hr Hs L. right. pose proof (delays_other _ _ _ _ _ D) as NI. destruct (delays_kind t p r a s b D Hr Hs) as [C|[_ C]]; [lia|].
  destruct D as [A [B [T [K [E [O N]]]]]]. assert (HA := dp_exec _ _ _ _ _ _ EX r a t A E). unfold outstanding in O. split; [|lia].
  destruct (Z.lt_ge_cases (cr_start a) (cr_issue b)) as [H|H]; [exact H|exfalso].
  destruct (Z.lt_ge_cases (cr_start a) (cr_start b)) as [H'|H'].
  - assert (X := dp_order _ _ _ _ _ _ EX p r s a b A B Hr Hs ltac:(lia)). rewrite T, tprio_i in X. lia.
  - assert (NE : (r, a) <> (s, b)) by (intros X; injection X as -> ->; congruence).
    destruct (dp_ceiling _ _ _ _ _ _ EX p r s a b A B Hr Hs NE ltac:(lia) ltac:(lia)) as [[_ X]|[_ X]].
    + apply X. rewrite T, tprio_i. exact C.
    + apply X. destruct (source info rel comp exec tr W LR s b B) as [rb [R1 [R2 [R3 R4]]]]. apply in_all_requests in R1. exists (rb_task rb), (rb_req rb).
      split; [apply R1|]. split; [apply R1|]. split; [exact R3|]. rewrite T in R2. rewrite (info_inj info W (rb_task rb) tsk (proj1 R1) Htsk R2). lia.
Qed.

(** at most one request of lower priority per request of the job *)
Lemma lower_unique p t t' r a r' a' s b : delays t r a s b -> delays t' r' a' s b -> cpu_of loc r = Some p -> cpu_of loc r' = Some p -> cpu_of loc s = Some p ->
  (ti_prio tsk < tprio info (cr_task a))%N -> (ti_prio tsk < tprio info (cr_task a'))%N -> (r, a) = (r', a').
Proof.
  intros D D' Hr Hr' Hs L L'.
  assert (S : (cr_start a < cr_issue b < cr_end a)%Z) by (destruct (lower_started t p r a s b D Hr Hs L); lia).
  assert (S' : (cr_start a' < cr_issue b < cr_end a')%Z) by (destruct (lower_started t' p r' a' s b D' Hr' Hs L'); lia).
  destruct (delays_kind t p r a s b D Hr Hs) as [C|[_ C]]; [lia|]. destruct (delays_kind t' p r' a' s b D' Hr' Hs) as [C'|[_ C']]; [lia|].
  assert (DEC : {(r, a) = (r', a')} + {(r, a) <> (r', a')}) by (repeat decide equality). destruct DEC as [E|NE]; [exact E|exfalso].
  destruct (dp_ceiling _ _ _ _ _ _ EX p r r' a a' (proj1 D) (proj1 D') Hr Hr' NE ltac:(lia) ltac:(lia)) as [[_ X]|[_ X]]; apply X.
  - destruct C as [w [q [W1 [W2 [W3 W4]]]]]. exists w, q. repeat split; try assumption. lia.
  - destruct C' as [w [q [W1 [W2 [W3 W4]]]]]. exists w, q. repeat split; try assumption. lia.
Qed.

(** * Remote delays *)
Section Remote.
Context (ts : list Z).
Hypothesis ND : NoDup ts.

(** [a] delays a request of the job at an instant of [ts] *)
Definition hit (r : nat) (a : creq) : bool :=
  match cpu_of loc r with
  | None => false
  | Some p => existsb (fun t => existsb (fun sb => exec r a t && ((cr_issue (snd sb) <=? t)%Z && (t <? cr_end (snd sb))%Z && negb (exec (fst sb) (snd sb) t))) (own_at p)) ts
  end.

Lemma hit_true r a p : In a (tr r) -> cpu_of loc r = Some p -> (hit r a = true <-> exists t s b, In t ts /\ delays t r a s b /\ cpu_of loc s = Some p).
Proof.
  intros A P. unfold hit. rewrite P, existsb_exists. split.
  - intros [t [T1 T2]]. apply existsb_exists in T2. destruct T2 as [[s b] [B1 B2]]. cbn [fst snd] in B2. rewrite !andb_true_iff, Z.leb_le, Z.ltb_lt, negb_true_iff in B2.
    apply in_own_at in B1. exists t, s, b. unfold delays, outstanding. tauto.
  - intros [t [s [b [T [D C]]]]]. exists t. split; [exact T|]. apply existsb_exists. exists (s, b). destruct D as [_ [B [E1 [E2 [E3 [E4 E5]]]]]]. split; [apply in_own_at; tauto|].
    cbn [fst snd]. unfold outstanding in E4. rewrite !andb_true_iff, Z.leb_le, Z.ltb_lt, negb_true_iff. tauto.
Qed.

Definition nh := nhits tr hit.

Lemma hits_delay p rb a : In rb (cont_at info loc p) -> In a (hits tr hit rb) -> exists t s b, In t ts /\ delays t (rb_res rb) a s b /\ cpu_of loc s = Some p.
Proof.
  intros Hrb Ha. apply in_cont_at in Hrb. apply in_hits in Ha. destruct Ha as [A1 [A2 A3]]. apply (hit_true (rb_res rb) a p A1 (proj2 Hrb)) in A3. exact A3.
Qed.

Lemma own_hits p rb : In rb (cont_at info loc p) -> ti_id (rb_task rb) = i -> nh rb = 0.
Proof.
  intros Hrb E. unfold nh, nhits. destruct (hits tr hit rb) as [|a l] eqn:H; [reflexivity|exfalso].
  assert (Ha : In a (hits tr hit rb)) by (rewrite H; left; reflexivity). destruct (hits_delay p rb a Hrb Ha) as [t [s [b [_ [D _]]]]].
  apply in_hits in Ha. apply (delays_other _ _ _ _ _ D). destruct Ha as [_ [Ha _]]. congruence.
Qed.

Lemma hits_window p rb : In rb (cont_at info loc p) -> nh rb <= maxn tsk rb.
Proof.
  intros Hrb. unfold nh, maxn. apply (window_number info rel comp exec tr W SJ LR hit rb tsk k); [apply in_cont_at in Hrb; apply Hrb|exact Htsk|].
  intros a Ha. destruct (hits_delay p rb a Hrb Ha) as [t [s [b [_ [D _]]]]]. destruct D as [A [B [T [K [E [O N]]]]]]. exists t.
  assert (HA := dp_exec _ _ _ _ _ _ EX _ a t A E). pose proof (lr_times _ _ _ _ _ _ (LR (rb_res rb)) a A). destruct (lr_job _ _ _ _ _ _ (LR s) b B) as [J1 J2]. rewrite T, K in J1, J2.
  unfold outstanding in O. fold i. lia.
Qed.

(** the requests of lower priority that hit, with their resources *)
Definition lower_hits (p : nat) : list (nat * creq) :=
  concat (map (fun rb => map (pair (rb_res rb)) (hits tr hit rb)) (filter (fun rb => negb (is_hp tsk rb)) (cont_at info loc p))).

Lemma in_lower p r a : In (r, a) (lower_hits p) -> cpu_of loc r = Some p /\ (ti_prio tsk < tprio info (cr_task a))%N /\ exists t s b, In t ts /\ delays t r a s b /\ cpu_of loc s = Some p.
Proof.
  unfold lower_hits. rewrite in_concat. intros [l [H1 H2]]. apply in_map_iff in H1. destruct H1 as [rb [<- Hrb]]. apply in_map_iff in H2. destruct H2 as [a' [E Ha]]. injection E as <- <-.
  apply filter_In in Hrb. destruct Hrb as [Hrb P]. destruct (hits_delay p rb a' Hrb Ha) as [t [s [b [T [D C]]]]]. pose proof Hrb as Hrb'. apply in_cont_at in Hrb'. destruct Hrb' as [R1 R2].
  split; [exact R2|]. split; [|exists t, s, b; auto].
  destruct (delays_kind t p _ _ _ _ D R2 C) as [L|[L _]]; [exfalso|exact L]. apply in_hits in Ha. destruct Ha as [A1 [A2 A3]]. apply in_all_requests in R1. rewrite A2, (tprio_nth _ _ (info_nth info W _ (proj1 R1))) in L.
  pose proof (delays_other _ _ _ _ _ D) as NI. unfold is_hp in P. apply negb_true_iff, andb_false_iff in P. destruct P as [P|P]; [apply negb_false_iff, Nat.eqb_eq in P; unfold i in NI; congruence|]. apply N.ltb_ge in P. lia.
Qed.

Lemma all_requests_keys : NoDup (map (fun rb => (ti_id (rb_task rb), rb_res rb)) (all_requests info)).
Proof.
  destruct W as [W1 W2]. assert (NDid : NoDup (map ti_id info)) by (rewrite W1; apply seq_NoDup). clear - NDid W2. unfold all_requests.
  induction info as [|t r IH]; [constructor|]. cbn [map concat] in *. inversion NDid as [|x y NI ND']; subst. rewrite map_app. apply NoDup_app_intro.
  - rewrite map_map. cbn [rb_task rb_res rb_req]. destruct (W2 t (or_introl eq_refl)) as [_ NDq]. clear - NDq. unfold rb_res; cbn [rb_req].
    induction (ti_requests t) as [|q l IH]; [constructor|]. cbn [map] in *. inversion NDq as [|x y NI ND']; subst. constructor; [|auto].
    intros H. apply in_map_iff in H. destruct H as [q' [E Hq]]. injection E as E. apply NI. rewrite <- E. apply in_map. exact Hq.
  - apply IH; [|exact ND']. intros u Hu. apply W2. right. exact Hu.
  - intros x H1 H2. apply in_map_iff in H1. destruct H1 as [rb [<- H1]]. apply in_map_iff in H1. destruct H1 as [q [<- Hq]]. cbn [rb_task] in H2.
    apply in_map_iff in H2. destruct H2 as [rb' [E H2]]. injection E as E1 E2. apply NI. rewrite <- E1. apply in_map. apply in_concat in H2. destruct H2 as [l [L1 L2]].
    apply in_map_iff in L1. destruct L1 as [u [<- Hu]]. apply in_map_iff in L2. destruct L2 as [q' [<- _]]. exact Hu.
Qed.

Lemma cont_keys p : NoDup (map (fun rb => (ti_id (rb_task rb), rb_res rb)) (cont_at info loc p)).
Proof.
  unfold cont_at, sort_by_request_length. eapply Permutation_NoDup; [apply Permutation_map, sort_len_perm|]. unfold at_cpu.
  pose proof all_requests_keys as H. clear - H. induction (all_requests info) as [|x r IH]; [constructor|]. cbn [map filter] in *. inversion H as [|y z NI ND']; subst.
  destruct (on_cpu loc p (rb_res x)); [|auto]. cbn [map]. constructor; [|auto]. intros X. apply NI. apply in_map_iff in X. destruct X as [y [E Hy]]. apply filter_In in Hy. rewrite <- E. apply (in_map (fun rb => (ti_id (rb_task rb), rb_res rb))). apply Hy.
Qed.

Lemma hits_nodup (cont : list rbound) (h : nat -> creq -> bool) : NoDup (map (fun rb => (ti_id (rb_task rb), rb_res rb)) cont) ->
  NoDup (concat (map (fun rb => map (pair (rb_res rb)) (hits tr h rb)) cont)).
Proof.
  induction cont as [|rb r IH]; intros H; [constructor|]. cbn [map concat] in *. inversion H as [|y z NI ND']; subst. apply NoDup_app_intro; [|auto|].
  - apply FinFun.Injective_map_NoDup; [intros x y E; congruence|]. unfold hits. apply NoDup_filter. apply (dp_distinct _ _ _ _ _ _ EX).
  - intros [s a] H1 H2. apply in_map_iff in H1. destruct H1 as [a' [E1 H1]]. injection E1 as <- <-. apply in_hits in H1. apply in_concat in H2. destruct H2 as [l [L1 L2]].
    apply in_map_iff in L1. destruct L1 as [rb' [<- R]]. apply in_map_iff in L2. destruct L2 as [a'' [E2 L2]]. injection E2 as E3 ->. apply in_hits in L2.
    apply NI. apply in_map_iff. exists rb'. split; [|exact R]. f_equal; [|congruence]. destruct H1 as [_ [H1 _]]. destruct L2 as [_ [L2 _]]. congruence.
Qed.

Lemma lower_nodup p : NoDup (lower_hits p).
Proof.
  unfold lower_hits. apply hits_nodup. pose proof (cont_keys p) as H. clear - H. induction (cont_at info loc p) as [|x r IH]; [constructor|]. cbn [map filter] in *. inversion H as [|y z NI ND']; subst.
  destruct (negb (is_hp tsk x)); [|auto]. cbn [map]. constructor; [|auto]. intros X. apply NI. apply in_map_iff in X. destruct X as [y [E Hy]]. apply filter_In in Hy. rewrite <- E. apply (in_map (fun rb => (ti_id (rb_task rb), rb_res rb))). apply Hy.
Qed.

Lemma lower_count p : (length (lower_hits p) <= length (own_at p))%nat.
Proof.
  apply (rel_inj (fun ra sb => exists t, delays t (fst ra) (snd ra) (fst sb) (snd sb)) (lower_hits p) (own_at p) (lower_nodup p)).
  - intros [r a] H. destruct (in_lower p r a H) as [H1 [H2 [t [s [b [T [D C]]]]]]]. exists (s, b). split; [|exists t; exact D]. apply in_own_at. destruct D as [_ [B [E1 [E2 _]]]]. tauto.
  - intros [r a] [r' a'] [s b] H1 H2 H3 [t D] [t' D']. cbn [fst snd] in D, D'. destruct (in_lower p r a H1) as [P1 [L1 _]]. destruct (in_lower p r' a' H2) as [P2 [L2 _]].
    apply in_own_at in H3. apply (lower_unique p t t' r a r' a' s b D D' P1 P2); tauto.
Qed.

Lemma at_cpu_bound p : nsumN (fun rb => nh rb * rb_len rb) (cont_at info loc p) <=
  if 0 <? count_requests_to_cpu tsk loc p then i_len (bound_blocking_dpcp tsk (cont_at info loc p) (get_priority_ceilings info) (count_requests_to_cpu tsk loc p)) else 0.
Proof.
  assert (OL := own_at_length p). assert (LC := lower_count p). assert (SUM : nsumN nh (filter (fun rb => negb (is_hp tsk rb)) (cont_at info loc p)) = N.of_nat (length (lower_hits p))).
  { unfold lower_hits. induction (filter (fun rb => negb (is_hp tsk rb)) (cont_at info loc p)) as [|x r IH]; [reflexivity|]. cbn [nsumN fold_right map concat]. fold (nsumN nh r). rewrite app_length, map_length, IH. unfold nh at 1, nhits. lia. }
  destruct (N.ltb_spec 0 (count_requests_to_cpu tsk loc p)) as [POS|Z0].
  - unfold bound_blocking_dpcp. rewrite dpcp_loop_sum. cbn [i_len inter0]. set (cont := cont_at info loc p) in *. set (ceil := get_priority_ceilings info).
    set (n := fun rb => if is_hp tsk rb then 0 else nh rb).
    assert (E : nsumN n cont = nsumN nh (filter (fun rb => negb (is_hp tsk rb)) cont)).
    { unfold n. clear. induction cont as [|x r IH]; [reflexivity|]. cbn [nsumN fold_right filter]. fold (nsumN (fun rb => if is_hp tsk rb then 0 else nh rb) r). rewrite IH. destruct (is_hp tsk x); cbn [negb]; reflexivity. }
    assert (G := greedy_fun (fun rb => if is_lp tsk ceil rb then maxn tsk rb else 0) rb_len n cont (sort_len_sorted rb_len _)).
    destruct G with (cap := count_requests_to_cpu tsk loc p) as [G1 _].
    { intros rb Hrb. unfold n. destruct (is_hp tsk rb) eqn:HP; [lia|]. destruct (is_lp tsk ceil rb) eqn:LP; [apply (hits_window p); exact Hrb|].
      assert (X : nh rb = 0); [|lia]. destruct (Nat.eqb_spec (ti_id (rb_task rb)) (ti_id tsk)) as [Q|Q]; [apply (own_hits p rb Hrb); exact Q|].
      unfold nh, nhits. destruct (hits tr hit rb) as [|a l] eqn:HH; [reflexivity|exfalso]. assert (Ha : In a (hits tr hit rb)) by (rewrite HH; left; reflexivity).
      destruct (hits_delay p rb a Hrb Ha) as [t [s [b [T [D C]]]]]. pose proof Hrb as Hrb'. apply in_cont_at in Hrb'. destruct Hrb' as [R1 R2].
      destruct (delays_kind t p _ _ _ _ D R2 C) as [L|[L CR]]; apply in_hits in Ha; destruct Ha as [_ [A2 _]]; apply in_all_requests in R1; rewrite A2, (tprio_nth _ _ (info_nth info W _ (proj1 R1))) in L.
      - unfold is_hp in HP. apply andb_false_iff in HP. destruct HP as [HP|HP]; [apply negb_false_iff, Nat.eqb_eq in HP; contradiction|]. apply N.ltb_ge in HP. lia.
      - unfold is_lp in LP. apply andb_false_iff in LP. destruct LP as [LP|LP].
        + apply andb_false_iff in LP. destruct LP as [LP|LP]; [apply negb_false_iff, Nat.eqb_eq in LP; contradiction|]. apply negb_false_iff, N.ltb_lt in LP. lia.
        + apply N.leb_gt in LP. unfold ceil in LP. rewrite ceilings_nth in LP. assert (Y : ceiling (for_resource (rb_res rb) (all_requests info)) <= ti_prio tsk); [|lia].
          apply ceiling_spec. right. destruct CR as [w [q [W1 [W2 [W3 W4]]]]]. exists (RB w q). split; [|exact W4]. unfold for_resource. apply filter_In. split; [apply in_all_requests; split; assumption|]. apply Nat.eqb_eq. exact W3. }
    { rewrite E, SUM. lia. }
    assert (D : nsumN (fun rb => nh rb * rb_len rb) cont <= nsumN (fun rb => if is_hp tsk rb then maxn tsk rb * rb_len rb else 0) cont + nsumN (fun a => n a * rb_len a) cont).
    { rewrite <- nsumN_plus. apply nsumN_le. intros rb Hrb. unfold n. destruct (is_hp tsk rb); [|lia]. assert (X := hits_window p rb Hrb). nia. }
    lia.
  - assert (O0 : own_at p = []) by (destruct (own_at p); [reflexivity|cbn in OL; lia]).
    rewrite (nsumN_ext _ (fun _ => 0)); [rewrite nsumN_zero; lia|]. intros rb Hrb. assert (X : nh rb = 0); [|lia]. unfold nh, nhits. destruct (hits tr hit rb) as [|a l] eqn:HH; [reflexivity|exfalso].
    assert (Ha : In a (hits tr hit rb)) by (rewrite HH; left; reflexivity). destruct (hits_delay p rb a Hrb Ha) as [t [s [b [T [D C]]]]].
    assert (Y : In (s, b) (own_at p)) by (apply in_own_at; destruct D as [_ [B [E1 [E2 _]]]]; tauto). rewrite O0 in Y. destruct Y.
Qed.

Let per_cpu := map sort_by_request_length (split_by_locality info loc).

Lemma remote_safe : (forall t, In t ts -> waits_remotely info (cpu_of loc) exec tr i k t) ->
  N.of_nat (length ts) <= i_len (dpcp_remote_bound tsk loc (get_priority_ceilings info) per_cpu).
Proof.
  intros H. set (ps := filter (fun p => negb (Nat.eqb p (ti_cluster tsk))) (seq 0 (length per_cpu))).
  assert (C : N.of_nat (length ts) <= nsumN (fun rb => nhits tr hit rb * rb_len rb) (concat (map (cont_at info loc) ps))).
  { apply (charge info rel comp exec tr W LR hit _ ts (dp_exec _ _ _ _ _ _ EX)); [|exact ND|].
    - intros rb Hrb. apply in_concat in Hrb. destruct Hrb as [l [L1 L2]]. apply in_map_iff in L1. destruct L1 as [p [<- _]]. apply in_cont_at in L2. apply L2.
    - intros t Ht. destruct (H t Ht) as [u [p [s [b [H1 [B [T [K [Pp [NP [O N]]]]]]]]]]]. unfold i in H1. rewrite (info_nth info W tsk Htsk) in H1. injection H1 as <-.
      destruct (dp_progress _ _ _ _ _ _ EX p s b t B Pp O N) as [r [a [A [Pr [E _]]]]]. destruct (source info rel comp exec tr W LR r a A) as [rb [R1 [R2 [R3 R4]]]]. exists rb, a.
      assert (IC : In rb (cont_at info loc p)) by (apply in_cont_at; rewrite R3; split; assumption).
      split; [|split].
      + apply in_concat. exists (cont_at info loc p). split; [|exact IC]. apply in_map. apply filter_In. split; [|apply negb_true_iff, Nat.eqb_neq; exact NP].
        apply in_seq. split; [lia|]. cbn. destruct (lt_dec p (length per_cpu)) as [L|L]; [exact L|exfalso]. unfold per_cpu in L. rewrite <- (per_cpu_nth info loc p), nth_overflow in IC by lia. destruct IC.
      + apply in_hits. rewrite R3. split; [exact A|]. split; [congruence|]. apply (hit_true r a p A Pr). exists t, s, b. unfold delays. tauto.
      + rewrite R3. exact E. }
  eapply N.le_trans; [exact C|]. rewrite remote_sum, (combine_seq_map []), nsumN_concat, !nsumN_map. unfold ps. clear C. generalize (seq 0 (length per_cpu)) as l. intros l.
  induction l as [|p r IH]; [cbn; lia|]. cbn [filter]. change (nsumN (fun a => remote_term tsk loc (get_priority_ceilings info) (a, nth a per_cpu [])) (p :: r)) with
    (remote_term tsk loc (get_priority_ceilings info) (p, nth p per_cpu []) + nsumN (fun a => remote_term tsk loc (get_priority_ceilings info) (a, nth a per_cpu [])) r).
  destruct (Nat.eqb p (ti_cluster tsk)) eqn:Q; cbn [negb]; [lia|].
  change (nsumN (fun a => nsumN (fun rb => nhits tr hit rb * rb_len rb) (cont_at info loc a)) (p :: filter (fun p => negb (Nat.eqb p (ti_cluster tsk))) r)) with
    (nsumN (fun rb => nhits tr hit rb * rb_len rb) (cont_at info loc p) + nsumN (fun a => nsumN (fun rb => nhits tr hit rb * rb_len rb) (cont_at info loc a)) (filter (fun p => negb (Nat.eqb p (ti_cluster tsk))) r)).
  apply N.add_le_mono; [|exact IH]. unfold remote_term, per_cpu; cbn [fst snd]. rewrite Q, per_cpu_nth. cbn [negb andb]. exact (at_cpu_bound p).
Qed.

(** * Local delays *)
Definition lhit (r : nat) (a : creq) : bool := existsb (fun t => exec r a t) ts && negb (Nat.eqb (cr_task a) i).

Lemma local_safe : (forall t, In t ts -> displaced info (cpu_of loc) rel comp exec tr i k t) ->
  N.of_nat (length ts) <= i_len (dpcp_local_bound tsk (nth (ti_cluster tsk) per_cpu [])).
Proof.
  intros H. unfold per_cpu. rewrite per_cpu_nth, local_sum. eapply N.le_trans.
  - apply (charge info rel comp exec tr W LR lhit (cont_at info loc (ti_cluster tsk)) ts (dp_exec _ _ _ _ _ _ EX)); [intros rb Hrb; apply in_cont_at in Hrb; apply Hrb|exact ND|].
    intros t Ht. destruct (H t Ht) as [u [r [a [H1 [H2 [A [NI [P E]]]]]]]]. unfold i in H1. rewrite (info_nth info W tsk Htsk) in H1. injection H1 as <-.
    destruct (source info rel comp exec tr W LR r a A) as [rb [R1 [R2 [R3 R4]]]]. exists rb, a. rewrite in_cont_at, in_hits, R3. repeat split; try assumption; [congruence|].
    unfold lhit. apply andb_true_iff. split; [apply existsb_exists; exists t; auto|]. apply negb_true_iff, Nat.eqb_neq. exact NI.
  - apply nsumN_le. intros rb Hrb. pose proof Hrb as Hrb'. apply in_cont_at in Hrb'. destruct Hrb' as [R1 R2]. destruct (Nat.eqb_spec (ti_id (rb_task rb)) (ti_id tsk)) as [E|E].
    + assert (X : nhits tr lhit rb = 0); [|lia]. unfold nhits. destruct (hits tr lhit rb) as [|a l] eqn:HH; [reflexivity|exfalso]. assert (Ha : In a (hits tr lhit rb)) by (rewrite HH; left; reflexivity).
      apply in_hits in Ha. destruct Ha as [_ [A2 A3]]. unfold lhit in A3. apply andb_true_iff in A3. destruct A3 as [_ A3]. apply negb_true_iff, Nat.eqb_neq in A3. apply A3. unfold i. congruence.
    + apply N.mul_le_mono_r. unfold maxn. apply (window_number info rel comp exec tr W SJ LR lhit rb tsk k R1 Htsk). intros a Ha. apply in_hits in Ha. destruct Ha as [A1 [A2 A3]].
      unfold lhit in A3. apply andb_true_iff in A3. destruct A3 as [A3 _]. apply existsb_exists in A3. destruct A3 as [t [T1 T2]]. exists t.
      assert (HA := dp_exec _ _ _ _ _ _ EX _ a t A1 T2). pose proof (lr_times _ _ _ _ _ _ (LR (rb_res rb)) a A1). destruct (H t T1) as [u [r [a' [_ [H2 _]]]]]. fold i. lia.
Qed.
End Remote.
End Exec.
