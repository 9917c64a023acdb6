(** Executions given by finite tables, and a check that such a table obeys the
    rules of SpecSpinFP.  Used to exhibit executions in examples and in
    counterexamples; the theorem [table_ok_sound] makes the check trustworthy. *)
From Coq Require Import NArith ZArith List Bool Lia Arith.
From Verif Require Import ModelLocking SpecLocking SpecSpinFP SpecSpinEDF.
Import ListNotations.
Open Scope Z_scope.

(** [tb_jobs]: release and completion of the first jobs of each task; later jobs
    are released after [tb_end], at distance [tb_gap], and need no time.
    [tb_reqs]: the requests for each resource.  [tb_sched]: the job on each processor at 0, 1, 2, ... *)
Record table := Table { tb_end : nat; tb_gap : N; tb_jobs : list (list (Z * Z)); tb_reqs : list (list creq); tb_sched : list (list (option (nat * nat))) }.

Definition later (T : table) (k : nat) : Z := Z.of_nat (tb_end T) + Z.of_nat k * Z.of_N (tb_gap T).
Definition jobs (T : table) (i : nat) : list (Z * Z) := nth i (tb_jobs T) [].
Definition table_exec (T : table) : execution :=
  Exec (fun i k => match nth_error (jobs T i) k with Some j => fst j | None => later T k end)
       (fun i k => match nth_error (jobs T i) k with Some j => snd j | None => later T k end)
       (fun r => nth r (tb_reqs T) [])
       (fun c t => if (0 <=? t) then nth (Z.to_nat t) (nth c (tb_sched T) []) None else None).

Definition times (T : table) : list Z := map Z.of_nat (seq 0 (tb_end T)).
Definition usesb (r : nat) (t : taskinfo) : bool := existsb (fun q => Nat.eqb (q_res q) r) (ti_requests t).
Definition globalb (info : list taskinfo) (r : nat) : bool :=
  existsb (fun t => existsb (fun u => usesb r t && usesb r u && negb (Nat.eqb (ti_cluster t) (ti_cluster u))) info) info.
Definition ceilingb (info : list taskinfo) (r : nat) : N :=
  match filter (usesb r) info with [] => 0%N | t :: l => fold_right (fun u m => N.min (ti_prio u) m) (ti_prio t) l end.
Definition jobeqb (a b : nat * nat) : bool := Nat.eqb (fst a) (fst b) && Nat.eqb (snd a) (snd b).
Definition priorities (info : list taskinfo) (T : table) (j : nat * nat) (t : Z) : list N :=
  match nth_error info (fst j) with Some k => [ti_prio k] | None => [] end ++
  concat (map (fun r => concat (map (fun c => if jobeqb (jobof c) j && (cr_issue c <? t) && (t <? cr_end c) then [if globalb info r then 0%N else ceilingb info r] else []) (nth r (tb_reqs T) []))) (seq 0 (length (tb_reqs T)))).

Fixpoint gaps (p : Z) (l : list (Z * Z)) : bool :=
  match l with a :: (b :: _) as r => (fst a + p <=? fst b) && gaps p r | _ => true end.
Fixpoint pairwise {A} (f : A -> A -> bool) (l : list A) : bool := match l with a :: r => forallb (f a) r && pairwise f r | [] => true end.
Definition apartb (a b : creq) : bool := (cr_end a <=? cr_issue b) || (cr_end b <=? cr_issue a).
Definition resrange (T : table) : list nat := seq 0 (length (tb_reqs T)).

Definition jobs_ok (info : list taskinfo) (T : table) : bool :=
  forallb (fun i => match nth_error info i with
    | Some t => (Z.of_N (ti_period t) <=? Z.of_N (tb_gap T)) && gaps (Z.of_N (ti_period t)) (jobs T i) &&
        forallb (fun j => (0 <=? fst j) && (fst j <=? Z.of_nat (tb_end T)) && (snd j <=? Z.of_nat (tb_end T))) (jobs T i) &&
        forallb (fun k => forallb (fun u => match nth_error (jobs T i) k with
            | Some j => negb ((fst j <=? u) && (u <? snd j)) || (Z.of_nat (count (works (table_exec T) info (i, k)) (fst j) (Z.to_nat (u - fst j))) <? Z.of_N (ti_cost t))
            | None => true end) (times T)) (seq 0 (length (jobs T i)))
    | None => true end) (seq 0 (length info)).

Definition requests_ok (info : list taskinfo) (T : table) : bool :=
  forallb (fun r =>
    let l := nth r (tb_reqs T) [] in
    pairwise (fun a b => negb (jobeqb (jobof a) (jobof b)) || apartb a b) l &&
    (negb (globalb info r) || pairwise (fun a b => (cr_end a <=? cr_start b) || (cr_end b <=? cr_start a)) l) &&
    forallb (fun i => match nth_error info i with Some t => forallb (fun q => negb (Nat.eqb (q_res q) r) ||
        forallb (fun k => (N.of_nat (length (filter (is_job i k) l)) <=? q_num q)%N) (seq 0 (length (jobs T i)))) (ti_requests t) | None => true end) (seq 0 (length info)) &&
    forallb (fun s => Nat.eqb r s || forallb (fun a => forallb (fun b => negb (jobeqb (jobof a) (jobof b)) || apartb a b) (nth s (tb_reqs T) [])) l) (resrange T) &&
    forallb (fun c =>
      (cr_issue c <=? cr_start c) && (cr_start c <=? cr_end c) && (cr_issue c <? cr_end c) &&
      match nth_error (jobs T (cr_task c)) (cr_job c) with Some j => (fst j <=? cr_issue c) && (cr_end c <=? snd j) | None => false end &&
      match nth_error info (cr_task c) with
      | Some t => existsb (fun q => Nat.eqb (q_res q) r && (Z.of_nat (count (runs (table_exec T) info (jobof c)) (cr_start c) (Z.to_nat (cr_end c - cr_start c))) <=? Z.of_N (q_len q))) (ti_requests t)
      | None => false end &&
      runs (table_exec T) info (jobof c) (cr_issue c) &&
      (if globalb info r
       then forallb (fun t => negb ((cr_issue c <=? t) && (t <? cr_end c)) || runs (table_exec T) info (jobof c) t) (times T) &&
            forallb (fun t => negb ((cr_issue c <=? t) && (t <? cr_start c)) || existsb (fun a => (cr_start a <=? t) && (t <? cr_end a)) l) (times T)
       else cr_start c =? cr_issue c)) l) (resrange T).

Definition local_ok (info : list taskinfo) (T : table) : bool :=
  forallb (fun c => (length (nth c (tb_sched T) []) <=? tb_end T)%nat && forallb (fun t => match x_sched (table_exec T) c t with
    | Some j => match nth_error (jobs T (fst j)) (snd j), nth_error info (fst j) with
        | Some x, Some k => (fst x <=? t) && (t <? snd x) && Nat.eqb (ti_cluster k) c
        | _, _ => false end
    | None => true end) (times T)) (seq 0 (length (tb_sched T))).

Definition sched_ok (info : list taskinfo) (T : table) : bool :=
  forallb (fun i => forallb (fun k => forallb (fun t => match nth_error info i, nth_error (jobs T i) k with
    | Some u, Some x => negb ((fst x <=? t) && (t <? snd x)) ||
        match x_sched (table_exec T) (ti_cluster u) t with
        | Some j' => existsb (fun p' => forallb (fun p => (p' <=? p)%N) (priorities info T (i, k) t)) (priorities info T j' t)
        | None => false end
    | _, _ => true end) (times T)) (seq 0 (length (jobs T i)))) (seq 0 (length info)).

Definition locks_ok (info : list taskinfo) (T : table) : bool := jobs_ok info T && requests_ok info T && local_ok info T.
Definition table_ok (info : list taskinfo) (T : table) : bool := locks_ok info T && sched_ok info T.

(** * Soundness *)
Lemma usesb_iff info r t : In t info -> (usesb r t = true <-> uses info r t).
Proof.
  intros T. unfold usesb, uses. rewrite existsb_exists. split; [intros [q [Q1 Q2]]; apply Nat.eqb_eq in Q2; split; [exact T|exists q; auto]|intros [_ [q [Q1 Q2]]]; exists q; split; [exact Q1|apply Nat.eqb_eq; exact Q2]].
Qed.

Lemma globalb_iff info r : globalb info r = true <-> global_resource info r.
Proof.
  unfold globalb, global_resource. rewrite existsb_exists. split.
  - intros [t [T H]]. apply existsb_exists in H. destruct H as [u [U H]]. rewrite !andb_true_iff, negb_true_iff, Nat.eqb_neq, (usesb_iff info), (usesb_iff info) in H by assumption. exists t, u. tauto.
  - intros [t [u [A [B C]]]]. exists t. split; [apply A|]. apply existsb_exists. exists u. split; [apply B|]. rewrite !andb_true_iff, negb_true_iff, Nat.eqb_neq, (usesb_iff info), (usesb_iff info); [tauto|apply B|apply A].
Qed.

Lemma ceilingb_spec info r t : uses info r t -> is_ceiling info r (ceilingb info r).
Proof.
  intros U. unfold ceilingb. assert (M : forall u, In u (filter (usesb r) info) <-> uses info r u).
  { intros u. rewrite filter_In. split; [intros [A B]; apply (usesb_iff info) in B; assumption|intros A; split; [apply A|apply (usesb_iff info); [apply A|exact A]]]. }
  destruct (filter (usesb r) info) as [|t0 l] eqn:F; [apply M in U; destruct U|].
  assert (G : forall l, (exists u, In u (t0 :: l) /\ ti_prio u = fold_right (fun u m => N.min (ti_prio u) m) (ti_prio t0) l) /\ forall u, In u (t0 :: l) -> (fold_right (fun u m => N.min (ti_prio u) m) (ti_prio t0) l <= ti_prio u)%N).
  { induction l0 as [|a l0 [[u [IU EU]] IH]]; [split; [exists t0; split; [left|]; reflexivity|intros u [<-|[]]; cbn; lia]|]. cbn [fold_right]. split.
    - destruct (N.min_dec (ti_prio a) (fold_right (fun u m => N.min (ti_prio u) m) (ti_prio t0) l0)) as [D|D]; [exists a; split; [right; left; reflexivity|lia]|].
      exists u. split; [destruct IU as [->|IU]; [left; reflexivity|right; right; exact IU]|lia].
    - intros v [->|[->|IV]]; [specialize (IH v (or_introl eq_refl)); lia|lia|specialize (IH v (or_intror IV)); lia]. }
  destruct (G l) as [[u [IU EU]] H]. split; [exists u; split; [apply M; exact IU|exact EU]|]. intros v V. apply H. apply M. exact V.
Qed.

Lemma ceiling_unique info r a b : is_ceiling info r a -> is_ceiling info r b -> a = b.
Proof. intros [[t [T1 T2]] A] [[u [U1 U2]] B]. specialize (A u U1). specialize (B t T1). lia. Qed.

Lemma in_times T t : 0 <= t < Z.of_nat (tb_end T) -> In t (times T).
Proof. intros H. unfold times. apply in_map_iff. exists (Z.to_nat t). split; [lia|]. apply in_seq. lia. Qed.

Lemma jobeqb_iff a b : jobeqb a b = true <-> a = b.
Proof. unfold jobeqb. rewrite andb_true_iff, !Nat.eqb_eq. destruct a, b; cbn. split; [intros [-> ->]; reflexivity|intros X; injection X; auto]. Qed.

Lemma pairwise_sound {A} (f : A -> A -> bool) (P : A -> A -> Prop) l : (forall a b, In a l -> In b l -> f a b = true -> P a b) -> pairwise f l = true -> ForallOrdPairs P l.
Proof.
  induction l as [|a l IH]; intros H W; cbn in W; [constructor|]. apply andb_true_iff in W. destruct W as [W1 W2]. constructor.
  - apply Forall_forall. intros b B. rewrite forallb_forall in W1. apply H; [left; reflexivity|right; exact B|auto].
  - apply IH; [intros; apply H; try right; assumption|exact W2].
Qed.

Lemma apartb_iff a b : apartb a b = true -> apart a b.
Proof. unfold apartb, apart. rewrite orb_true_iff, !Z.leb_le. lia. Qed.

Lemma gaps_step p l : gaps p l = true -> forall k a b, nth_error l k = Some a -> nth_error l (S k) = Some b -> fst a + p <= fst b.
Proof.
  induction l as [|x l IH]; intros H k a b A B; [destruct k; discriminate|]. destruct l as [|y l]; [destruct k as [|[|k]]; discriminate|]. cbn [gaps] in H. apply andb_true_iff in H. destruct H as [H1 H2].
  destruct k as [|k]; cbn in A, B; [injection A as <-; injection B as <-; apply Z.leb_le; exact H1|]. apply (IH H2 k a b A B).
Qed.

Lemma nth_in {A} (l : list A) k a : nth_error l k = Some a -> In k (seq 0 (length l)).
Proof. intros H. apply in_seq. split; [lia|]. cbn. apply nth_error_Some. rewrite H. discriminate. Qed.

Lemma res_in T r c : In c (nth r (tb_reqs T) []) -> In r (resrange T).
Proof.
  intros H. apply in_seq. split; [lia|]. cbn. destruct (Nat.lt_ge_cases r (length (tb_reqs T))) as [X|X]; [exact X|]. rewrite nth_overflow in H by exact X. destruct H.
Qed.

Lemma priorities_iff info T j t p : (forall r c, In c (nth r (tb_reqs T) []) -> exists k, nth_error info (cr_task c) = Some k /\ usesb r k = true) ->
  (In p (priorities info T j t) <-> has_priority (table_exec T) info j t p).
Proof.
  intros U. unfold priorities, has_priority. rewrite in_app_iff. split.
  - intros [H|H].
    + left. destruct (nth_error info (fst j)) as [k|]; [|destruct H]. destruct H as [<-|[]]. exists k. auto.
    + right. apply in_concat in H. destruct H as [l [H1 H2]]. apply in_map_iff in H1. destruct H1 as [r [<- R]]. apply in_concat in H2. destruct H2 as [l [H1 H2]]. apply in_map_iff in H1. destruct H1 as [c [<- C]].
      destruct (jobeqb (jobof c) j && (cr_issue c <? t) && (t <? cr_end c)) eqn:B; [|destruct H2]. rewrite !andb_true_iff, jobeqb_iff, !Z.ltb_lt in B. destruct H2 as [<-|[]].
      exists r, c. split; [exact C|]. split; [tauto|]. split; [tauto|]. destruct (globalb info r) eqn:G.
      * left. split; [apply globalb_iff; exact G|reflexivity].
      * right. split; [intros X; apply globalb_iff in X; congruence|]. destruct (U r c C) as [k [K UK]]. apply (ceilingb_spec info r k). apply usesb_iff; [eapply nth_error_In; exact K|exact UK].
  - intros [[k [K ->]]|[r [c [C [J [TM PR]]]]]].
    + left. rewrite K. left. reflexivity.
    + right. cbn [x_tr table_exec] in C. apply in_concat. eexists. split; [apply in_map_iff; exists r; split; [reflexivity|apply (res_in T r c C)]|]. apply in_concat. eexists. split; [apply in_map_iff; exists c; split; [reflexivity|exact C]|].
      replace (jobeqb (jobof c) j && (cr_issue c <? t) && (t <? cr_end c)) with true; [|symmetry; rewrite !andb_true_iff, jobeqb_iff, !Z.ltb_lt; tauto].
      left. destruct (globalb info r) eqn:G; destruct PR as [[P1 P2]|[P1 P2]].
      * symmetry; exact P2.
      * exfalso. apply P1. apply globalb_iff. exact G.
      * apply globalb_iff in P1. congruence.
      * destruct (U r c C) as [k [K UK]]. apply (ceiling_unique info r); [|exact P2]. apply (ceilingb_spec info r k). apply usesb_iff; [eapply nth_error_In; exact K|exact UK].
Qed.

Theorem locks_ok_sound info T : locks_ok info T = true -> lock_rules info (table_exec T).
Proof.
  unfold locks_ok. rewrite !andb_true_iff. intros [[J R] S].
  unfold jobs_ok in J. rewrite forallb_forall in J.
  assert (JB : forall i t, nth_error info i = Some t -> (Z.of_N (ti_period t) <= Z.of_N (tb_gap T)) /\ gaps (Z.of_N (ti_period t)) (jobs T i) = true /\
    (forall k j, nth_error (jobs T i) k = Some j -> 0 <= fst j <= Z.of_nat (tb_end T) /\ snd j <= Z.of_nat (tb_end T) /\
      forall u, fst j <= u < snd j -> Z.of_nat (count (works (table_exec T) info (i, k)) (fst j) (Z.to_nat (u - fst j))) < Z.of_N (ti_cost t))).
  { intros i t H. specialize (J i (nth_in info i t H)). rewrite H in J. rewrite !andb_true_iff, Z.leb_le, !forallb_forall in J. destruct J as [[[J1 J2] J3] J4]. split; [exact J1|]. split; [exact J2|]. intros k j K.
    specialize (J3 j (nth_error_In _ _ K)). rewrite !andb_true_iff, !Z.leb_le in J3. split; [lia|]. split; [lia|]. intros u U. specialize (J4 k (nth_in _ k j K)). rewrite forallb_forall in J4.
    specialize (J4 u (in_times T u ltac:(lia))). rewrite K in J4. apply orb_true_iff in J4. destruct J4 as [J4|J4]; [|apply Z.ltb_lt; exact J4].
    apply negb_true_iff in J4. assert (X : (fst j <=? u) && (u <? snd j) = true) by (rewrite andb_true_iff, Z.leb_le, Z.ltb_lt; lia). congruence. }
  assert (PEND : forall i k t, pending (table_exec T) (i, k) t -> exists j, nth_error (jobs T i) k = Some j /\ fst j <= t < snd j).
  { intros i k t P. unfold pending in P. cbn in P. destruct (nth_error (jobs T i) k) as [j|]; [exists j; auto|lia]. }
  unfold requests_ok in R. rewrite forallb_forall in R.
  assert (RR : forall r, (In r (resrange T)) -> (ForallOrdPairs (fun a b => jobof a = jobof b -> apart a b) (nth r (tb_reqs T) [])) /\
    (global_resource info r -> ForallOrdPairs (fun a b => cr_end a <= cr_start b \/ cr_end b <= cr_start a) (nth r (tb_reqs T) [])) /\
    (forall i k t q j, nth_error info i = Some t -> In q (ti_requests t) -> q_res q = r -> nth_error (jobs T i) k = Some j -> (N.of_nat (length (filter (is_job i k) (nth r (tb_reqs T) []))) <= q_num q)%N) /\
    (forall s a b, r <> s -> In a (nth r (tb_reqs T) []) -> In b (nth s (tb_reqs T) []) -> jobof a = jobof b -> apart a b) /\
    forall c, In c (nth r (tb_reqs T) []) -> (cr_issue c <= cr_start c <= cr_end c /\ cr_issue c < cr_end c) /\
      (exists j, nth_error (jobs T (cr_task c)) (cr_job c) = Some j /\ fst j <= cr_issue c /\ cr_end c <= snd j) /\
      (exists t q, nth_error info (cr_task c) = Some t /\ In q (ti_requests t) /\ q_res q = r /\ Z.of_nat (count (runs (table_exec T) info (jobof c)) (cr_start c) (Z.to_nat (cr_end c - cr_start c))) <= Z.of_N (q_len q)) /\
      runs (table_exec T) info (jobof c) (cr_issue c) = true /\
      (global_resource info r -> forall t, 0 <= t < Z.of_nat (tb_end T) -> (cr_issue c <= t < cr_end c -> runs (table_exec T) info (jobof c) t = true) /\
         (cr_issue c <= t < cr_start c -> exists a, In a (nth r (tb_reqs T) []) /\ cr_start a <= t < cr_end a)) /\
      (~ global_resource info r -> cr_start c = cr_issue c)).
  { intros r IR. specialize (R r IR). cbv zeta in R. rewrite !andb_true_iff in R. destruct R as [[[[R1 R2] R3] R4] R5]. split; [|split; [|split; [|split]]].
    - apply (pairwise_sound _ _ _) with (2 := R1). intros a b _ _ H JE. apply orb_true_iff in H. destruct H as [H|H]; [|apply apartb_iff; exact H]. apply negb_true_iff in H. apply jobeqb_iff in JE. congruence.
    - intros G. apply globalb_iff in G. rewrite G in R2. cbn [negb orb] in R2. apply (pairwise_sound _ _ _) with (2 := R2). intros a b _ _ H. rewrite orb_true_iff, !Z.leb_le in H. exact H.
    - intros i k t q j H Q RQ K. rewrite forallb_forall in R3. specialize (R3 i (nth_in info i t H)). rewrite H in R3. rewrite forallb_forall in R3. specialize (R3 q Q). rewrite RQ, Nat.eqb_refl in R3. cbn [negb orb] in R3. rewrite forallb_forall in R3.
      specialize (R3 k (nth_in _ k j K)). apply N.leb_le. exact R3.
    - intros s a b NE A B JE. rewrite forallb_forall in R4. specialize (R4 s (res_in T s b B)). apply orb_true_iff in R4. destruct R4 as [R4|R4]; [apply Nat.eqb_eq in R4; contradiction|]. rewrite forallb_forall in R4. specialize (R4 a A). rewrite forallb_forall in R4. specialize (R4 b B).
      apply orb_true_iff in R4. destruct R4 as [R4|R4]; [|apply apartb_iff; exact R4]. apply negb_true_iff in R4. apply jobeqb_iff in JE. congruence.
    - intros c C. rewrite forallb_forall in R5. specialize (R5 c C). rewrite !andb_true_iff, !Z.leb_le, Z.ltb_lt in R5. destruct R5 as [[[[[[A1 A2] A3] A4] A5] A6] A7]. split; [lia|]. split; [|split; [|split; [exact A6|split]]].
      + destruct (nth_error (jobs T (cr_task c)) (cr_job c)) as [j|]; [|discriminate]. rewrite andb_true_iff, !Z.leb_le in A4. exists j. tauto.
      + destruct (nth_error info (cr_task c)) as [t|]; [|discriminate]. apply existsb_exists in A5. destruct A5 as [q [Q1 Q2]]. rewrite andb_true_iff, Nat.eqb_eq, Z.leb_le in Q2. exists t, q. tauto.
      + intros G t TM. apply globalb_iff in G. rewrite G in A7. rewrite andb_true_iff, !forallb_forall in A7. destruct A7 as [B1 B2]. split.
        * intros X. specialize (B1 t (in_times T t TM)). apply orb_true_iff in B1. destruct B1 as [B1|B1]; [|exact B1]. apply negb_true_iff in B1. assert (Y : (cr_issue c <=? t) && (t <? cr_end c) = true) by (rewrite andb_true_iff, Z.leb_le, Z.ltb_lt; lia). congruence.
        * intros X. specialize (B2 t (in_times T t TM)). apply orb_true_iff in B2. destruct B2 as [B2|B2].
          -- apply negb_true_iff in B2. assert (Y : (cr_issue c <=? t) && (t <? cr_start c) = true) by (rewrite andb_true_iff, Z.leb_le, Z.ltb_lt; lia). congruence.
          -- apply existsb_exists in B2. destruct B2 as [a [A B]]. rewrite andb_true_iff, Z.leb_le, Z.ltb_lt in B. exists a. auto.
      + intros G. destruct (globalb info r) eqn:GB; [apply globalb_iff in GB; contradiction|]. apply Z.eqb_eq. exact A7. }
  assert (RANGE : forall r c, In c (nth r (tb_reqs T) []) -> 0 <= cr_issue c /\ cr_end c <= Z.of_nat (tb_end T)).
  { intros r c C. destruct (RR r (res_in T r c C)) as [_ [_ [_ [_ H]]]]. destruct (H c C) as [_ [[j [J1 J2]] [[t [q [T1 _]]] _]]]. destruct (JB _ t T1) as [_ [_ JJ]]. specialize (JJ _ j J1). lia. }
  unfold local_ok in S. rewrite forallb_forall in S. rename S into S1.
  constructor.
  - intros i k t H. destruct (JB i t H) as [G [GP JJ]]. cbn [x_rel table_exec]. split.
    + destruct (nth_error (jobs T i) 0) as [j|] eqn:K; [apply (JJ 0%nat j K)|unfold later; nia].
    + destruct (nth_error (jobs T i) k) as [j|] eqn:K, (nth_error (jobs T i) (Datatypes.S k)) as [j'|] eqn:K'.
      * apply (gaps_step _ _ GP k j j' K K').
      * pose proof (JJ k j K). unfold later. nia.
      * exfalso. apply nth_error_None in K. assert (X : (Datatypes.S k < length (jobs T i))%nat) by (apply nth_error_Some; rewrite K'; discriminate). lia.
      * unfold later. nia.
  - intros i k t u H P. destruct (PEND i k u P) as [j [K U]]. destruct (JB i t H) as [_ [_ JJ]]. specialize (JJ k j K). cbn [x_rel table_exec]. rewrite K. apply JJ. exact U.
  - intros r c C. apply (RR r (res_in T r c C)). exact C.
  - intros r c C. destruct (RR r (res_in T r c C)) as [_ [_ [_ [_ H]]]]. destruct (H c C) as [_ [[j [J1 J2]] _]]. cbn. rewrite J1. exact J2.
  - intros r c C. apply (RR r (res_in T r c C)). exact C.
  - intros r i k t q H Q RQ. cbn [x_tr table_exec]. destruct (filter (is_job i k) (nth r (tb_reqs T) [])) as [|c l] eqn:F; [cbn; lia|]. rewrite <- F.
    assert (C : In c (filter (is_job i k) (nth r (tb_reqs T) []))) by (rewrite F; left; reflexivity). apply filter_In in C. destruct C as [C IJ]. unfold is_job in IJ. rewrite andb_true_iff, !Nat.eqb_eq in IJ. destruct IJ as [I1 I2].
    destruct (RR r (res_in T r c C)) as [_ [_ [N1 [_ HC]]]]. destruct (HC c C) as [_ [[j [J1 _]] _]]. rewrite I1, I2 in J1. apply (N1 i k t q j H Q RQ J1).
  - intros r. cbn [x_tr table_exec]. destruct (nth r (tb_reqs T) []) as [|c l] eqn:F; [constructor|]. rewrite <- F. apply RR. apply (res_in T r c). rewrite F. left. reflexivity.
  - intros r s a b NE A B. destruct (RR r (res_in T r a A)) as [_ [_ [_ [H _]]]]. apply (H s a b NE A B).
  - intros r c C. destruct (RR r (res_in T r c C)) as [_ [_ [_ [_ H]]]]. destruct (H c C) as [_ [_ [_ [H' _]]]]. exact H'.
  - intros r c t C G TM. destruct (RR r (res_in T r c C)) as [_ [_ [_ [_ H]]]]. destruct (H c C) as [_ [_ [_ [_ [HG _]]]]]. apply (HG G t); [|exact TM]. pose proof (RANGE r c C). lia.
  - intros r G. cbn [x_tr table_exec]. destruct (nth r (tb_reqs T) []) as [|c l] eqn:F; [constructor|]. rewrite <- F. apply RR; [|exact G]. apply (res_in T r c). rewrite F. left. reflexivity.
  - intros r c t C G TM. destruct (RR r (res_in T r c C)) as [_ [_ [_ [_ H]]]]. destruct (H c C) as [TT [_ [_ [_ [HG _]]]]]. apply (HG G t); [|exact TM]. pose proof (RANGE r c C). lia.
  - intros r c C. apply (RR r (res_in T r c C)). exact C.
  - intros c t j H. pose proof H as H'. cbn [x_sched table_exec] in H. destruct (Z.leb_spec 0 t) as [T0|T0]; [|discriminate].
    assert (IC : In c (seq 0 (length (tb_sched T)))).
    { apply in_seq. split; [lia|]. cbn. destruct (Nat.lt_ge_cases c (length (tb_sched T))) as [X|X]; [exact X|]. rewrite (nth_overflow (tb_sched T)) in H by exact X. destruct (Z.to_nat t); discriminate. }
    specialize (S1 c IC). rewrite andb_true_iff, Nat.leb_le, forallb_forall in S1. destruct S1 as [S0 S1].
    assert (IT : 0 <= t < Z.of_nat (tb_end T)).
    { split; [exact T0|]. destruct (Nat.lt_ge_cases (Z.to_nat t) (length (nth c (tb_sched T) []))) as [X|X]; [lia|]. rewrite nth_overflow in H by exact X. discriminate. }
    specialize (S1 t (in_times T t IT)). rewrite H' in S1. destruct (nth_error (jobs T (fst j)) (snd j)) as [x|] eqn:K; [|discriminate]. destruct (nth_error info (fst j)) as [k|] eqn:N1; [|discriminate].
    rewrite !andb_true_iff, Z.leb_le, Z.ltb_lt, Nat.eqb_eq in S1. split; [unfold pending; cbn; rewrite K; tauto|]. exists k. tauto.
Qed.

Theorem table_ok_sound info T : table_ok info T = true -> spin_execution info (table_exec T).
Proof.
  unfold table_ok. rewrite andb_true_iff. intros [LK S]. pose proof (locks_ok_sound info T LK) as LR. unfold locks_ok in LK. rewrite !andb_true_iff in LK. destruct LK as [[J R] S1].
  unfold jobs_ok in J. rewrite forallb_forall in J. unfold sched_ok in S. rewrite forallb_forall in S.
  constructor; try apply LR.
  intros [i k] u t H P. cbn [fst] in H. unfold pending in P. cbn in P. destruct (nth_error (jobs T i) k) as [x|] eqn:K; [|lia].
  assert (U : 0 <= fst x /\ snd x <= Z.of_nat (tb_end T)).
  { specialize (J i (nth_in info i u H)). rewrite H in J. rewrite !andb_true_iff, !forallb_forall in J. destruct J as [[_ J3] _]. specialize (J3 x (nth_error_In _ _ K)). rewrite !andb_true_iff, !Z.leb_le in J3. lia. }
  specialize (S i (nth_in info i u H)). rewrite forallb_forall in S. specialize (S k (nth_in _ k x K)). rewrite forallb_forall in S. specialize (S t (in_times T t ltac:(lia))). rewrite H, K in S.
  apply orb_true_iff in S. destruct S as [S|S]; [apply negb_true_iff in S; assert (Y : (fst x <=? t) && (t <? snd x) = true) by (rewrite andb_true_iff, Z.leb_le, Z.ltb_lt; lia); congruence|].
  destruct (x_sched (table_exec T) (ti_cluster u) t) as [j'|] eqn:SC; [|discriminate]. exists j'. split; [reflexivity|]. apply existsb_exists in S. destruct S as [p' [P1 P2]]. rewrite forallb_forall in P2.
  assert (UU : forall r c, In c (nth r (tb_reqs T) []) -> exists k, nth_error info (cr_task c) = Some k /\ usesb r k = true).
  { intros r c C. destruct (lr_spec _ _ LR r c C) as [t' [q [T1 [T2 [T3 _]]]]]. exists t'. split; [exact T1|]. apply existsb_exists. exists q. split; [exact T2|apply Nat.eqb_eq; exact T3]. }
  intros p HP. exists p'. split; [apply (priorities_iff info T j' t p' UU); exact P1|]. apply (priorities_iff info T (i, k) t p UU) in HP. apply N.leb_le. apply P2. exact HP.
Qed.

(** The other hypotheses of the theorems about executions, decided on tables. *)
Definition quietb (info : list taskinfo) (T : table) (c : nat) (p : N) (ts : Z) : bool :=
  (ts <=? Z.of_nat (tb_end T)) && forallb (fun i => match nth_error info i with
    | Some u => negb (Nat.eqb (ti_cluster u) c && (ti_prio u <=? p)%N) || forallb (fun j => negb (fst j <? ts) || (snd j <=? ts)) (jobs T i)
    | None => true end) (seq 0 (length info)).

Lemma quietb_sound info T c p ts : quietb info T c p ts = true -> quiet info (table_exec T) c p ts.
Proof.
  unfold quietb. rewrite andb_true_iff, Z.leb_le, forallb_forall. intros [E H] i k u I C P. specialize (H i (nth_in info i u I)). rewrite I in H.
  cbn [x_rel x_comp table_exec]. destruct (nth_error (jobs T i) k) as [j|] eqn:K.
  - intros L. rewrite orb_true_iff, negb_true_iff, forallb_forall in H. destruct H as [H|H].
    + assert (X : Nat.eqb (ti_cluster u) c && (ti_prio u <=? p)%N = true) by (rewrite andb_true_iff, Nat.eqb_eq, N.leb_le; auto). congruence.
    + specialize (H j (nth_error_In _ _ K)). apply orb_true_iff in H. destruct H as [H|H]; [apply negb_true_iff, Z.ltb_ge in H; lia|apply Z.leb_le; exact H].
  - unfold later. nia.
Qed.

Definition busyb (info : list taskinfo) (T : table) (c : nat) (p : N) (ts : Z) (n : nat) : bool :=
  forallb (fun d => existsb (fun i => match nth_error info i with
    | Some u => Nat.eqb (ti_cluster u) c && (ti_prio u <=? p)%N && existsb (fun j => (fst j <=? ts + Z.of_nat d) && (ts + Z.of_nat d <? snd j)) (jobs T i)
    | None => false end) (seq 0 (length info))) (seq 0 n).

Lemma busyb_sound info T c p ts n : busyb info T c p ts n = true -> busy info (table_exec T) c p ts (ts + Z.of_nat n).
Proof.
  unfold busyb. rewrite forallb_forall. intros H t B. specialize (H (Z.to_nat (t - ts)) ltac:(apply in_seq; lia)). replace (ts + Z.of_nat (Z.to_nat (t - ts))) with t in H by lia.
  apply existsb_exists in H. destruct H as [i [_ H]]. destruct (nth_error info i) as [u|] eqn:I; [|discriminate]. rewrite !andb_true_iff, Nat.eqb_eq, N.leb_le in H. destruct H as [[H1 H2] H3].
  apply existsb_exists in H3. destruct H3 as [j [J1 J2]]. apply In_nth_error in J1. destruct J1 as [k K]. rewrite andb_true_iff, Z.leb_le, Z.ltb_lt in J2. exists i, k, u. repeat split; auto; cbn [x_rel x_comp table_exec fst snd]; rewrite K; lia.
Qed.

Definition on_timeb (info : list taskinfo) (T : table) (d : Z) : bool :=
  forallb (fun i => match nth_error info i with
    | Some u => forallb (fun j => negb (fst j + Z.of_N (ti_response u) <? d) || (snd j <=? fst j + Z.of_N (ti_response u))) (jobs T i)
    | None => true end) (seq 0 (length info)).

Lemma on_timeb_sound info T d : on_timeb info T d = true -> on_time info (table_exec T) d.
Proof.
  unfold on_timeb. rewrite forallb_forall. intros H i k u I. specialize (H i (nth_in info i u I)). rewrite I, forallb_forall in H. cbn [x_rel x_comp table_exec]. destruct (nth_error (jobs T i) k) as [j|] eqn:K; [|lia].
  intros L. specialize (H j (nth_error_In _ _ K)). apply orb_true_iff in H. destruct H as [H|H]; [apply negb_true_iff, Z.ltb_ge in H; lia|apply Z.leb_le; exact H].
Qed.

Definition pairs_ok (info : list taskinfo) (T : table) (f : nat -> creq -> creq -> bool) : bool :=
  forallb (fun r => negb (globalb info r) || forallb (fun a => forallb (f r a) (nth r (tb_reqs T) [])) (nth r (tb_reqs T) [])) (resrange T).

Lemma pairs_sound info T f (P : nat -> creq -> creq -> Prop) : (forall r a b, f r a b = true -> P r a b) -> pairs_ok info T f = true ->
  forall r a b, global_resource info r -> In a (x_tr (table_exec T) r) -> In b (x_tr (table_exec T) r) -> P r a b.
Proof.
  unfold pairs_ok. rewrite forallb_forall. intros F H r a b G A B. cbn [x_tr table_exec] in A, B. specialize (H r (res_in T r a A)). apply globalb_iff in G. rewrite G in H. cbn [negb orb] in H.
  rewrite forallb_forall in H. specialize (H a A). rewrite forallb_forall in H. apply F. apply H. exact B.
Qed.
