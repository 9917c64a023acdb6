(** The time lost in a busy window is a feasible solution of the spin-lock programs. *)
From Coq Require Import NArith ZArith QArith List Bool Lia Arith Lqa.
From Verif Require Import ModelLocking SpecLocking ModelLP ModelLPSpin SpecLP SpecSpinFP ProofSpin ProofLockingMono ProofLP ProofLPSpin ProofSpinCount.
Import ListNotations.
Open Scope Z_scope.

Lemma runs_iff E info j t k : nth_error info (fst j) = Some k -> (runs E info j t = true <-> x_sched E (ti_cluster k) t = Some j).
Proof.
  intros H. unfold runs. rewrite H. destruct (x_sched E (ti_cluster k) t) as [[a b]|]; [|split; discriminate].
  destruct j as [x y]; cbn [fst snd]. rewrite andb_true_iff, !Nat.eqb_eq. split; [intros [-> ->]; reflexivity|]. intros X; injection X as -> ->. auto.
Qed.

Lemma is_job_iff j c : is_job (fst j) (snd j) c = true <-> jobof c = j.
Proof.
  destruct j as [x y]. unfold is_job, jobof; cbn [fst snd]. rewrite andb_true_iff, !Nat.eqb_eq. split; [intros [-> ->]; reflexivity|]. intros X; injection X as -> ->. auto.
Qed.

Lemma tr_nodup info E r : spin_execution info E -> NoDup (x_tr E r).
Proof.
  intros SE. pose proof (se_sequential _ _ SE r) as S. pose proof (se_times _ _ SE r) as T. induction (x_tr E r) as [|a l IH]; [constructor|].
  inversion S as [|x y F S']; subst. constructor; [|apply IH; [exact S'|intros c Hc; apply T; right; exact Hc]].
  intros X. rewrite Forall_forall in F. specialize (F a X eq_refl). specialize (T a (or_introl eq_refl)). unfold apart in F. lia.
Qed.

(** * Sums *)
Lemma nq_nonneg z : (0 <= NQ z)%Q.
Proof. unfold NQ. change 0%Q with (inject_Z 0). rewrite <- Zle_Qle. lia. Qed.

Lemma qsum_nth {A} (f : A -> Q) (l : list A) : (forall a, In a l -> (0 <= f a)%Q) -> forall m,
  (qsum (fun v => match nth_error l v with Some a => f a | None => 0 end) (seq 0 m) <= qsum f l)%Q.
Proof.
  induction l as [|a l IH]; intros H m.
  - rewrite qsum_zero; [apply Qle_refl|]. intros v _. destruct v; reflexivity.
  - destruct m as [|m]; [apply qsum_nonneg; exact H|]. cbn [seq]. rewrite <- seq_shift, qsum_cons, qsum_cons, qsum_map. cbn [nth_error].
    apply Qplus_le_compat; [apply Qle_refl|]. apply IH. intros x Hx. apply H. right. exact Hx.
Qed.

Lemma qsum_pos {A} (f : A -> Q) (pos : A -> bool) (l : list A) : (forall a, In a l -> (f a <= 1)%Q) -> (forall a, In a l -> pos a = false -> (f a == 0)%Q) ->
  (qsum f l <= inject_Z (Z.of_nat (length (filter pos l))))%Q.
Proof.
  induction l as [|a l IH]; intros H1 H2; [apply Qle_refl|]. rewrite qsum_cons. cbn [filter].
  assert (IH' := IH (fun x Hx => H1 x (or_intror Hx)) (fun x Hx => H2 x (or_intror Hx))).
  destruct (pos a) eqn:P.
  - cbn [length]. rewrite Nat2Z.inj_succ. unfold Z.succ. rewrite inject_Z_plus. specialize (H1 a (or_introl eq_refl)). change (inject_Z 1) with 1%Q. lra.
  - specialize (H2 a (or_introl eq_refl) P). lra.
Qed.

Lemma qsum_one {A} (f : A -> Q) (pos : A -> bool) (l : list A) : NoDup l -> (forall a, In a l -> (f a <= 1)%Q) -> (forall a, In a l -> pos a = false -> (f a == 0)%Q) ->
  (forall a b, In a l -> In b l -> pos a = true -> pos b = true -> a = b) -> (qsum f l <= 1)%Q.
Proof.
  intros ND H1 H2 H3. eapply Qle_trans; [apply (qsum_pos f pos l H1 H2)|]. change 1%Q with (inject_Z 1). rewrite <- Zle_Qle.
  pose proof (NoDup_filter pos ND) as NF. assert (M : forall a, In a (filter pos l) -> In a l /\ pos a = true) by (intros a Ha; apply filter_In; exact Ha).
  destruct (filter pos l) as [|a [|b r]]; cbn [length]; [lia|lia|]. exfalso. inversion NF as [|x y NI _]; subst. apply NI. left.
  destruct (M a (or_introl eq_refl)), (M b (or_intror (or_introl eq_refl))). symmetry. apply H3; assumption.
Qed.

Lemma nodup_res t r r' : NoDup (map q_res (ti_requests t)) -> In r (ti_requests t) -> In r' (ti_requests t) -> q_res r = q_res r' -> r = r'.
Proof.
  induction (ti_requests t) as [|q l IH]; intros ND H1 H2 E; [destruct H1|]. cbn in ND. inversion ND as [|x y NI ND']; subst.
  destruct H1 as [->|H1], H2 as [->|H2]; [reflexivity| | |apply IH; assumption]; exfalso; apply NI; [rewrite E|rewrite <- E]; apply in_map; assumption.
Qed.

Lemma filter_filter_le {A} (f g : A -> bool) l : (length (filter f (filter g l)) <= length (filter f l))%nat.
Proof. induction l as [|a l IH]; cbn; [lia|]. destruct (g a); cbn; destruct (f a); cbn; lia. Qed.

Lemma wf_nodup_id info : wf_info info -> NoDup (map ti_id info).
Proof. intros [W _]. rewrite W. apply seq_NoDup. Qed.

Lemma nodup_filter_id f (l : list taskinfo) : NoDup (map ti_id l) -> NoDup (map ti_id (filter f l)).
Proof.
  induction l as [|t l IH]; intros H; cbn in *; [constructor|]. inversion H as [|x y NI ND]; subst. destruct (f t); cbn; [|auto]. constructor; [|auto].
  intros X. apply NI. apply in_map_iff in X. destruct X as [u [<- X]]. apply filter_In in X. apply in_map. apply X.
Qed.

Lemma filter_none {A} (f : A -> bool) l : (forall a, In a l -> f a = false) -> filter f l = [].
Proof. induction l as [|a l IH]; intros H; cbn; [reflexivity|]. rewrite (H a (or_introl eq_refl)). apply IH. intros x Hx. apply H. right. exact Hx. Qed.

Lemma nodup_requests_for t q : NoDup (map q_res (ti_requests t)) -> (length (requests_for t q) <= 1)%nat.
Proof.
  unfold requests_for, requests_of. induction (ti_requests t) as [|r l IH]; intros H; cbn; [lia|]. cbn in H. inversion H as [|x y NI ND]; subst.
  destruct (Nat.eqb_spec (rb_res (RB t r)) q) as [E|E]; [|auto]. cbn [length]. rewrite (proj2 (List.length_zero_iff_nil _)); [lia|].
  apply filter_none. intros b Hb. apply in_map_iff in Hb. destruct Hb as [r' [<- Hb]]. apply Nat.eqb_neq. intros E'. apply NI. unfold rb_res in E, E'. cbn in E, E'. rewrite E, <- E'. apply in_map. exact Hb.
Qed.

Lemma nodup_ids tl q : NoDup (map ti_id tl) -> (forall t, In t tl -> NoDup (map q_res (ti_requests t))) ->
  NoDup (map (fun r => ti_id (rb_task r)) (concat (map (fun t => requests_for t q) tl))).
Proof.
  intros H1 H2. rewrite concat_map, map_map. apply (nodup_concat (fun x => x) ti_id); [exact H1| |].
  - intros t Ht. pose proof (nodup_requests_for t q (H2 t Ht)) as L. destruct (requests_for t q) as [|a [|b r]]; cbn in *; [constructor|constructor; [intros []|constructor]|lia].
  - intros t x _ Hx. apply in_map_iff in Hx. destruct Hx as [r [<- Hr]]. apply in_requests_for in Hr. destruct Hr as [-> _]. reflexivity.
Qed.

Lemma sum_over_cons {A} (f : A -> N) a l : sum_over f (a :: l) = (f a + sum_over f l)%N.
Proof.
  assert (G : forall l s, fold_left (fun s x => (s + f x)%N) l s = (s + sum_over f l)%N).
  { unfold sum_over. induction l0 as [|x r IH]; intros s; cbn [fold_left]; [lia|]. rewrite IH, (IH (0 + f x)%N). lia. }
  unfold sum_over at 1. cbn [fold_left]. rewrite G. lia.
Qed.

Lemma sum_over_in {A} (f : A -> N) l a : In a l -> (f a <= sum_over f l)%N.
Proof. induction l as [|x r IH]; intros H; [destruct H|]. rewrite sum_over_cons. destruct H as [->|H]; [lia|]. specialize (IH H). lia. Qed.

Lemma nsum_sum_over {A} (f : A -> nat) (g : A -> N) l : (forall a, In a l -> (N.of_nat (f a) <= g a)%N) -> (N.of_nat (nsum f l) <= sum_over g l)%N.
Proof.
  induction l as [|x r IH]; intros H; [cbn; lia|]. rewrite sum_over_cons. cbn. fold (nsum f r). specialize (IH (fun a Ha => H a (or_intror Ha))). specialize (H x (or_introl eq_refl)). lia.
Qed.

Lemma nsum_concat {A B} (f : A -> nat) (g : B -> list A) l : nsum f (concat (map g l)) = nsum (fun b => nsum f (g b)) l.
Proof. induction l as [|b r IH]; cbn [map concat]; [reflexivity|]. rewrite nsum_app, IH. reflexivity. Qed.

Lemma nsum_length {A B} (g : B -> list A) l : length (concat (map g l)) = nsum (fun b => length (g b)) l.
Proof. induction l as [|b r IH]; cbn; [reflexivity|]. rewrite app_length, IH. reflexivity. Qed.

Lemma nsum_const {A} (f : A -> nat) l m : (forall a, In a l -> (f a <= m)%nat) -> (nsum f l <= length l * m)%nat.
Proof. induction l as [|a r IH]; intros H; cbn; [lia|]. fold (nsum f r). specialize (IH (fun x Hx => H x (or_intror Hx))). specialize (H a (or_introl eq_refl)). lia. Qed.

Lemma Nat2N_le a b : (a <= b)%nat -> (N.of_nat a <= N.of_nat b)%N.
Proof. lia. Qed.

Lemma sum_over_mul {A} (f : A -> N) (m : N) l : sum_over (fun x => (f x * m)%N) l = (sum_over f l * m)%N.
Proof. induction l as [|x r IH]; [reflexivity|]. rewrite !sum_over_cons, IH. lia. Qed.

Section Rules.
Variables (info : list taskinfo) (E : execution).
Hypothesis SE : spin_execution info E.

(** a job has one request at a time *)
Lemma one_request r s a b t : In a (x_tr E r) -> In b (x_tr E s) -> jobof a = jobof b -> cr_issue a <= t < cr_end a -> cr_issue b <= t < cr_end b -> r = s /\ a = b.
Proof.
  intros A B J TA TB. destruct (Nat.eq_dec r s) as [->|N].
  - split; [reflexivity|]. destruct (ForallOrdPairs_In (se_sequential _ _ SE s) a b A B) as [X|[X|X]]; [exact X|specialize (X J)|specialize (X (eq_sym J))]; unfold apart in X; lia.
  - pose proof (se_one_at_a_time _ _ SE r s a b N A B J) as X. unfold apart in X; lia.
Qed.

Lemma waits_global r b t : In b (x_tr E r) -> cr_issue b <= t < cr_start b -> ~ ~ global_resource info r.
Proof. intros B T G. rewrite (se_local _ _ SE r b B G) in T. lia. Qed.
End Rules.

Lemma global_dec info r : {global_resource info r} + {~ global_resource info r}.
Proof.
  set (us := filter (fun t => existsb (fun q => Nat.eqb (q_res q) r) (ti_requests t)) info).
  assert (U : forall t, In t us <-> uses info r t).
  { intros t. unfold us, uses. rewrite filter_In, existsb_exists. split; intros [H [q [H1 H2]]]; (split; [exact H|]); exists q; (split; [exact H1|]); apply Nat.eqb_eq; exact H2. }
  destruct (existsb (fun t => existsb (fun u => negb (Nat.eqb (ti_cluster t) (ti_cluster u))) us) us) eqn:X.
  - left. apply existsb_exists in X. destruct X as [t [T X]]. apply existsb_exists in X. destruct X as [u [V X]]. exists t, u. rewrite <- !U. split; [exact T|split; [exact V|]]. apply negb_true_iff, Nat.eqb_neq in X. exact X.
  - right. intros [t [u [T [V N]]]]. apply U in T, V.
    assert (Y : existsb (fun t => existsb (fun u => negb (Nat.eqb (ti_cluster t) (ti_cluster u))) us) us = true).
    { apply existsb_exists. exists t. split; [exact T|]. apply existsb_exists. exists u. split; [exact V|]. apply negb_true_iff, Nat.eqb_neq. exact N. }
    congruence.
Qed.

Section Window.
Variables (info : list taskinfo) (i : nat) (ti : taskinfo) (E : execution) (ts : Z) (n : nat) (d : Z).
Hypothesis WF : wf_info info.
Hypothesis DP : distinct_priorities info.
Hypothesis SE : spin_execution info E.
Hypothesis HI : nth_error info i = Some ti.
Hypothesis HN : Z.of_nat n <= Z.of_N (ti_response ti).
Hypothesis HR : (ti_response ti <= ti_period ti)%N.
Let c := ti_cluster ti.
Let p := ti_prio ti.
Hypothesis HQ : quiet info E c p ts.
Hypothesis HB : busy info E c p ts (ts + Z.of_nat n).
Hypothesis HO : on_time info E d.
Hypothesis HD : ts + Z.of_nat n <= d.

Definition low (j : nat * nat) : bool := match nth_error info (fst j) with Some k => (p <? ti_prio k)%N | None => true end.
Definition waiting (j : nat * nat) (q : nat) (t : Z) : bool :=
  existsb (fun b => is_job (fst j) (snd j) b && (cr_issue b <=? t) && (t <? cr_start b)) (x_tr E q).
Definition holding (a : creq) (t : Z) : bool := (cr_start a <=? t) && (t <? cr_end a).
Definition charge_d (q : nat) (a : creq) (t : Z) : bool :=
  match x_sched E c t with Some j => negb (low j) && waiting j q t && holding a t | None => false end.
Definition charge_a (q : nat) (a : creq) (t : Z) : bool :=
  match x_sched E c t with Some j => low j && holding a t && (waiting j q t || is_job (fst j) (snd j) a) | None => false end.
Definition win (t : Z) : Prop := ts <= t < ts + Z.of_nat n.

Lemma waiting_iff j q t : waiting j q t = true <-> exists b, In b (x_tr E q) /\ jobof b = j /\ cr_issue b <= t < cr_start b.
Proof.
  unfold waiting. rewrite existsb_exists. split.
  - intros [b [B H]]. apply andb_true_iff in H. destruct H as [H H3]. apply andb_true_iff in H. destruct H as [H1 H2]. exists b. split; [exact B|]. split; [apply is_job_iff; exact H1|]. apply Z.leb_le in H2. apply Z.ltb_lt in H3. lia.
  - intros [b [B [J H]]]. exists b. split; [exact B|]. apply is_job_iff in J. rewrite J. destruct (Z.leb_spec (cr_issue b) t); [|lia]. destruct (Z.ltb_spec t (cr_start b)); [reflexivity|lia].
Qed.

Lemma holding_iff a t : holding a t = true <-> cr_start a <= t < cr_end a.
Proof. unfold holding. rewrite andb_true_iff, Z.leb_le, Z.ltb_lt. reflexivity. Qed.

Lemma charge_d_iff q a t : charge_d q a t = true <-> exists j, x_sched E c t = Some j /\ low j = false /\ waiting j q t = true /\ cr_start a <= t < cr_end a.
Proof.
  unfold charge_d. destruct (x_sched E c t) as [j|].
  - rewrite !andb_true_iff, negb_true_iff, holding_iff. split; [intros [[H1 H2] H3]; exists j; auto|]. intros [j' [X [H1 [H2 H3]]]]. injection X as <-. auto.
  - split; [discriminate|]. intros [j [X _]]. discriminate.
Qed.

Lemma charge_a_iff q a t : charge_a q a t = true <-> exists j, x_sched E c t = Some j /\ low j = true /\ cr_start a <= t < cr_end a /\ (waiting j q t = true \/ jobof a = j).
Proof.
  unfold charge_a. destruct (x_sched E c t) as [j|].
  - rewrite !andb_true_iff, orb_true_iff, is_job_iff, holding_iff. split; [intros [[H1 H2] H3]; exists j; auto|]. intros [j' [X [H1 [H2 H3]]]]. injection X as <-. auto.
  - split; [discriminate|]. intros [j [X _]]. discriminate.
Qed.

Lemma waiting_global j q t : waiting j q t = true -> global_resource info q.
Proof.
  intros W. apply waiting_iff in W. destruct W as [b [B [_ T]]]. destruct (global_dec info q) as [G|G]; [exact G|]. destruct (waits_global info E SE q b t B T G).
Qed.

Lemma sched_cluster j t : x_sched E c t = Some j -> exists k, nth_error info (fst j) = Some k /\ ti_cluster k = c.
Proof. intros S. destruct (se_sched _ _ SE c t j S) as [_ H]. exact H. Qed.

Lemma sched_runs j t : x_sched E c t = Some j -> runs E info j t = true.
Proof. intros S. destruct (sched_cluster j t S) as [k [K C]]. apply (runs_iff _ _ _ _ _ K). rewrite C. exact S. Qed.

Lemma runs_sched j t k : nth_error info (fst j) = Some k -> ti_cluster k = c -> runs E info j t = true -> x_sched E c t = Some j.
Proof. intros K C R. apply (runs_iff _ _ _ _ _ K) in R. rewrite C in R. exact R. Qed.

(** the request a low-priority job is in while it is scheduled in the window *)
Definition in_request (r : nat) (b : creq) : Prop :=
  In b (x_tr E r) /\ (global_resource info r \/ ~ global_resource info r /\ exists p', is_ceiling info r p' /\ (p' <= p)%N).

Lemma low_not_own j k : low j = true -> nth_error info (fst j) = Some k -> (p < ti_prio k)%N.
Proof. unfold low. intros H K. rewrite K in H. apply N.ltb_lt. exact H. Qed.

Lemma low_priority j t q' : low j = true -> has_priority E info j t q' -> (q' <= p)%N ->
  exists r b, in_request r b /\ jobof b = j /\ cr_issue b < t < cr_end b.
Proof.
  intros L [[k [K ->]]|[r [b [B [J [T X]]]]]] P; [pose proof (low_not_own j k L K); lia|]. exists r, b. split; [|auto]. split; [exact B|].
  destruct X as [[G _]|[G X]]; [left; exact G|right; split; [exact G|]]. exists q'. auto.
Qed.

Lemma low_scheduled j t : win t -> x_sched E c t = Some j -> low j = true -> exists r b, in_request r b /\ jobof b = j /\ cr_issue b < t < cr_end b.
Proof.
  intros T S L. destruct (HB t T) as [x [k [u [U [C [P PE]]]]]]. destruct (se_priority _ _ SE (x, k) u t U PE) as [j' [S' Q]].
  rewrite C, S in S'. injection S' as <-. destruct (Q (ti_prio u)) as [p' [H1 H2]]; [left; exists u; auto|]. apply (low_priority j t p' L H1). lia.
Qed.

Definition blocker (r : nat) (b : creq) : Prop := in_request r b /\ low (jobof b) = true /\
  (exists k, nth_error info (cr_task b) = Some k /\ ti_cluster k = c) /\ cr_issue b < ts < cr_end b.

Lemma blocker_exists j t : win t -> x_sched E c t = Some j -> low j = true -> exists r b, blocker r b /\ jobof b = j /\ cr_issue b < t < cr_end b.
Proof.
  intros T S L. destruct (low_scheduled j t T S L) as [r [b [R [J TB]]]]. exists r, b. split; [|auto]. subst j. split; [exact R|]. split; [exact L|]. split; [apply (sched_cluster _ _ S)|].
  unfold win in T. assert (cr_issue b < ts); [|lia]. destruct (Z.lt_ge_cases (cr_issue b) ts) as [X|X]; [exact X|exfalso].
  assert (T' : win (cr_issue b)) by (unfold win; lia). destruct (sched_cluster _ _ S) as [k [K C]].
  pose proof (runs_sched (jobof b) (cr_issue b) k K C (se_issue _ _ SE r b (proj1 R))) as S'.
  destruct (low_scheduled _ _ T' S' L) as [r' [b' [R' [J' TB']]]].
  destruct (one_request info E SE r r' b b' (cr_issue b) (proj1 R) (proj1 R') (eq_sym J')) as [_ ->]; [|lia|lia].
  pose proof (se_times _ _ SE r b (proj1 R)). lia.
Qed.

Lemma blocker_order r1 b1 r2 b2 : blocker r1 b1 -> blocker r2 b2 -> cr_issue b1 <= cr_issue b2 -> r1 = r2 /\ b1 = b2.
Proof.
  intros [R1 [L1 [[k1 [K1 C1]] T1]]] [R2 [L2 [[k2 [K2 C2]] T2]]] O.
  assert (J : jobof b1 = jobof b2 -> r1 = r2 /\ b1 = b2).
  { intros J. apply (one_request info E SE r1 r2 b1 b2 ts (proj1 R1) (proj1 R2) J); lia. }
  pose proof (runs_sched (jobof b2) (cr_issue b2) k2 K2 C2 (se_issue _ _ SE r2 b2 (proj1 R2))) as S2.
  destruct (Z.eq_dec (cr_issue b1) (cr_issue b2)) as [EQ|NE].
  - apply J. pose proof (runs_sched (jobof b1) (cr_issue b1) k1 K1 C1 (se_issue _ _ SE r1 b1 (proj1 R1))) as S1. rewrite EQ, S2 in S1. injection S1 as X1 X2. unfold jobof. congruence.
  - destruct R1 as [B1 [G|[G [p' [CE LE]]]]].
    + apply J. assert (S1 : runs E info (jobof b1) (cr_issue b2) = true) by (apply (se_nonpreemptive _ _ SE r1 b1); [exact B1|exact G|lia]).
      apply (runs_sched (jobof b1) (cr_issue b2) k1 K1 C1) in S1. rewrite S2 in S1. injection S1 as X1 X2. unfold jobof. congruence.
    + exfalso. assert (PE : pending E (jobof b1) (cr_issue b2)).
      { pose proof (se_job _ _ SE r1 b1 B1). unfold pending, jobof; cbn [fst snd]. lia. }
      destruct (se_priority _ _ SE (jobof b1) k1 (cr_issue b2) K1 PE) as [j' [S' Q]]. rewrite C1, S2 in S'. injection S' as S'.
      destruct (Q p') as [p2 [H1 H2]]. { right. exists r1, b1. split; [exact B1|split; [reflexivity|split; [lia|]]]. right. auto. }
      rewrite <- S' in H1. destruct (low_priority (jobof b2) (cr_issue b2) p2 L2 H1 ltac:(lia)) as [r [b [R [Jb T]]]].
      destruct (one_request info E SE r2 r b2 b (cr_issue b2) (proj1 R2) (proj1 R) (eq_sym Jb)) as [_ <-]; lia.
Qed.

Lemma blocker_unique r1 b1 r2 b2 : blocker r1 b1 -> blocker r2 b2 -> r1 = r2 /\ b1 = b2.
Proof.
  intros H1 H2. destruct (Z.le_ge_cases (cr_issue b1) (cr_issue b2)); [apply blocker_order; assumption|].
  destruct (blocker_order r2 b2 r1 b1 H2 H1 ltac:(lia)). auto.
Qed.

(** * What a charge tells *)
Definition task_of (a : creq) (q : nat) (tx : taskinfo) : Prop := nth_error info (cr_task a) = Some tx.

Lemma charge_a_blocker q a t : In a (x_tr E q) -> win t -> charge_a q a t = true ->
  exists b, blocker q b /\ ((cr_issue b <= t < cr_start b /\ cr_start a <= t < cr_end a /\ global_resource info q /\
    forall tx, nth_error info (cr_task a) = Some tx -> ti_cluster tx <> c) \/ a = b).
Proof.
  intros A T H. apply charge_a_iff in H. destruct H as [j [S [L [TA X]]]]. destruct (blocker_exists j t T S L) as [r [b [B [J TB]]]].
  pose proof (se_times _ _ SE q a A) as TT.
  destruct (waiting j q t) eqn:W.
  - pose proof (waiting_global j q t W) as G. apply waiting_iff in W. destruct W as [b' [B' [J' TB']]]. pose proof (se_times _ _ SE q b' B') as TT'.
    destruct (one_request info E SE q r b' b t B' (proj1 (proj1 B))) as [<- <-]; [congruence|lia|lia|]. exists b'. split; [exact B|]. left. split; [lia|split; [exact TA|split; [exact G|]]].
    intros tx TX C. assert (R : runs E info (jobof a) t = true) by (apply (se_nonpreemptive _ _ SE q a); [exact A|exact G|lia]).
    apply (runs_sched (jobof a) t tx TX C) in R. rewrite S in R. injection R as R. subst j.
    destruct (one_request info E SE q q a b' t A B') as [_ <-]; [unfold jobof in *; congruence|lia|lia|lia].
  - destruct X as [X|X]; [discriminate|]. destruct (one_request info E SE q r a b t A (proj1 (proj1 B))) as [<- <-]; [congruence|lia|lia|]. exists a. split; [exact B|right; reflexivity].
Qed.

Lemma charge_a_low q a t tx : In a (x_tr E q) -> win t -> charge_a q a t = true -> nth_error info (cr_task a) = Some tx -> ti_cluster tx = c -> (p < ti_prio tx)%N.
Proof.
  intros A T H TX C. destruct (charge_a_blocker q a t A T H) as [b [B [[_ [_ [_ X]]]|<-]]]; [destruct (X tx TX C)|]. apply (low_not_own (jobof a) tx); [apply B|exact TX].
Qed.

Lemma charge_d_remote q a t tx : In a (x_tr E q) -> charge_d q a t = true -> nth_error info (cr_task a) = Some tx -> ti_cluster tx <> c.
Proof.
  intros A H TX C. apply charge_d_iff in H. destruct H as [j [S [_ [W TA]]]]. pose proof (waiting_global j q t W) as G.
  apply waiting_iff in W. destruct W as [b [B [J TB]]]. pose proof (se_times _ _ SE q a A). pose proof (se_times _ _ SE q b B).
  assert (R : runs E info (jobof a) t = true) by (apply (se_nonpreemptive _ _ SE q a); [exact A|exact G|lia]).
  apply (runs_sched (jobof a) t tx TX C) in R. rewrite S in R. injection R as R. subst j.
  destruct (one_request info E SE q q a b t A B) as [_ <-]; [unfold jobof in *; congruence|lia|lia|lia].
Qed.

Lemma charge_runs q a t : In a (x_tr E q) -> charge_d q a t = true \/ charge_a q a t = true -> runs E info (jobof a) t = true /\ cr_start a <= t < cr_end a.
Proof.
  intros A H. pose proof (se_times _ _ SE q a A).
  assert (X : exists j, x_sched E c t = Some j /\ cr_start a <= t < cr_end a /\ (waiting j q t = true \/ jobof a = j)).
  { destruct H as [H|H]; [apply charge_d_iff in H; destruct H as [j [S [_ [W TA]]]]|apply charge_a_iff in H; destruct H as [j [S [_ [TA W]]]]]; exists j; auto. }
  destruct X as [j [S [TA W]]]. split; [|exact TA]. destruct W as [W| <-]; [|apply sched_runs; exact S].
  apply (se_nonpreemptive _ _ SE q a); [exact A|apply (waiting_global j q t W)|lia].
Qed.

Lemma lost_charged t : win t -> lost info E c p t = true -> exists q a, In a (x_tr E q) /\ (charge_d q a t = true \/ charge_a q a t = true).
Proof.
  intros T H. destruct (HB t T) as [x [k [u [U [C [P PE]]]]]]. destruct (se_priority _ _ SE (x, k) u t U PE) as [j [S _]]. rewrite C in S.
  destruct (sched_cluster j t S) as [kj [K _]]. unfold lost in H. rewrite S, K in H.
  destruct (low j) eqn:L.
  - destruct (low_scheduled j t T S L) as [r [b [R [J TB]]]]. destruct R as [B G].
    destruct (Z.lt_ge_cases t (cr_start b)) as [X|X].
    + assert (W : waiting j r t = true) by (apply waiting_iff; exists b; repeat split; [exact B|exact J|lia|exact X]).
      destruct (se_busy _ _ SE r b t B (waiting_global j r t W) ltac:(lia)) as [a [A TA]]. exists r, a. split; [exact A|]. right. apply charge_a_iff. exists j. auto.
    + exists r, b. split; [exact B|]. right. apply charge_a_iff. exists j. split; [exact S|split; [exact L|split; [lia|right; exact J]]].
  - unfold low in L. rewrite K in L. rewrite L in H. cbn [orb] in H. unfold spins in H. apply existsb_exists in H. destruct H as [r [_ W]]. change (waiting j r t = true) in W.
    assert (W' := W). apply waiting_iff in W'. destruct W' as [b [B [J TB]]]. destruct (se_busy _ _ SE r b t B (waiting_global j r t W) ltac:(lia)) as [a [A TA]].
    exists r, a. split; [exact A|]. left. apply charge_d_iff. exists j. repeat split; [exact S| |exact W|lia|lia]. unfold low. rewrite K. exact L.
Qed.
(** * The requests that overlap with the window *)
Definition in_window (x : nat) (a : creq) : bool := Nat.eqb (cr_task a) x && ((cr_start a <? ts + Z.of_nat n) && (ts <? cr_end a)).
Definition insts (x q : nat) : list creq := filter (in_window x) (x_tr E q).

Lemma in_insts x q a : In a (insts x q) <-> In a (x_tr E q) /\ cr_task a = x /\ cr_start a < ts + Z.of_nat n /\ ts < cr_end a.
Proof. unfold insts, in_window. rewrite filter_In, !andb_true_iff, Nat.eqb_eq, !Z.ltb_lt. tauto. Qed.

Lemma job_span x k tx t lo : nth_error info x = Some tx -> pending E (x, k) t -> t <= d -> lo <= t ->
  lo - Z.of_N (ti_response tx) <= x_rel E x k <= t /\ (t < d -> lo - Z.of_N (ti_response tx) < x_rel E x k).
Proof.
  intros X P T L. unfold pending in P; cbn [fst snd] in P. destruct (Z.lt_ge_cases (x_rel E x k + Z.of_N (ti_response tx)) d) as [H|H]; [pose proof (HO x k tx X H)|]; lia.
Qed.

Lemma holding_pending q a t : In a (x_tr E q) -> cr_issue a <= t < cr_end a -> pending E (cr_task a, cr_job a) t.
Proof. intros A T. pose proof (se_job _ _ SE q a A). unfold pending; cbn [fst snd]. lia. Qed.

Lemma insts_length x q tx r : nth_error info x = Some tx -> In r (ti_requests tx) -> q_res r = q ->
  (N.of_nat (length (insts x q)) <= get_max_num_requests (RB tx r) (ti_response ti))%N.
Proof.
  intros X R Q. unfold get_max_num_requests, get_max_num_jobs; cbn [rb_task rb_req].
  apply (requests_bound (x_rel E x) (ti_period tx)) with (x := x) (lo := ts - Z.of_N (ti_response tx)).
  - apply WF. eapply nth_error_In. exact X.
  - intros k. apply (se_rel _ _ SE x k tx X).
  - intros a A. apply in_insts in A. destruct A as [A [C [T1 T2]]]. split; [exact C|]. subst x. pose proof (se_times _ _ SE q a A).
    assert (P : pending E (cr_task a, cr_job a) (Z.max (cr_issue a) ts)) by (apply (holding_pending q); [exact A|lia]).
    assert (Z.max (cr_issue a) ts <= d) by lia. pose proof (job_span (cr_task a) (cr_job a) tx (Z.max (cr_issue a) ts) ts X P ltac:(assumption) ltac:(lia)). pose proof (se_job _ _ SE q a A). lia.
  - intros k. eapply N.le_trans; [|apply (se_number _ _ SE q x k tx r X R Q)]. pose proof (filter_filter_le (is_job x k) (in_window x) (x_tr E q)). unfold insts. lia.
Qed.

(** * The assignment *)
Definition chg (b : btype) : nat -> creq -> Z -> bool :=
  match b with BLOCKING_DIRECT => charge_d | BLOCKING_INDIRECT => charge_a | _ => fun _ _ _ => false end.
Definition len_of (x q : nat) : N :=
  match nth_error info x with Some t => match find (fun r => Nat.eqb (q_res r) q) (ti_requests t) with Some r => q_len r | None => 0%N end | None => 0%N end.
Definition cnt (b : btype) (q : nat) (a : creq) : nat := count (chg b q a) ts n.
Definition part (b : btype) (q : nat) (a : creq) : Q := (inject_Z (Z.of_nat (cnt b q a)) / NQ (len_of (cr_task a) q))%Q.
Definition pos (b : btype) (q : nat) (a : creq) : bool := Nat.ltb 0 (cnt b q a).
Definition enabled (q : nat) : bool := existsb (pos BLOCKING_INDIRECT q) (x_tr E q).
Definition assign (v : var) : Q :=
  match v_type v with
  | BLOCKING_PREEMPT => if enabled (v_res v) then 1 else 0
  | BLOCKING_OTHER => 0
  | b => match nth_error (insts (v_task v) (v_res v)) (v_req v) with Some a => part b (v_res v) a | None => 0 end
  end%Q.

Lemma pos_true b q a : pos b q a = true -> exists t, win t /\ chg b q a t = true.
Proof. intros H. apply Nat.ltb_lt in H. destruct (count_pos _ _ _ H) as [t [T C]]. exists t. auto. Qed.

Lemma len_of_spec x q tx r : nth_error info x = Some tx -> In r (ti_requests tx) -> q_res r = q -> len_of x q = q_len r.
Proof.
  intros X R Q. unfold len_of. rewrite X. destruct (find _ _) as [r'|] eqn:F.
  - apply find_some in F. destruct F as [R' Q']. apply Nat.eqb_eq in Q'. rewrite (nodup_res tx r' r); [reflexivity|apply WF; eapply nth_error_In; exact X|exact R'|exact R|congruence].
  - pose proof (find_none _ _ F r R) as N. cbn in N. apply Nat.eqb_neq in N. congruence.
Qed.

Lemma cnt_len q a : In a (x_tr E q) -> (N.of_nat (cnt BLOCKING_DIRECT q a + cnt BLOCKING_INDIRECT q a) <= len_of (cr_task a) q)%N.
Proof.
  intros A. destruct (se_spec _ _ SE q a A) as [tx [r [X [R [Q L]]]]]. rewrite (len_of_spec _ q tx r X R Q).
  pose proof (se_times _ _ SE q a A) as T. unfold cnt, chg.
  assert (D : (count (charge_d q a) ts n + count (charge_a q a) ts n <= count (fun t => runs E info (jobof a) t && holding a t) ts n)%nat).
  { apply count_disjoint.
    - intros t _ H1 H2. apply charge_d_iff in H1. apply charge_a_iff in H2. destruct H1 as [j [S1 [L1 _]]], H2 as [j' [S2 [L2 _]]]. congruence.
    - intros t _ H. destruct (charge_runs q a t A H) as [H1 H2]. rewrite H1. cbn. apply holding_iff. exact H2. }
  assert (W : (count (fun t => runs E info (jobof a) t && holding a t) ts n <= count (fun t => runs E info (jobof a) t && holding a t) (cr_start a) (Z.to_nat (cr_end a - cr_start a)))%nat).
  { apply count_window; [lia|]. intros t _ H. apply andb_true_iff in H. apply holding_iff. apply H. }
  assert (G : (count (fun t => runs E info (jobof a) t && holding a t) (cr_start a) (Z.to_nat (cr_end a - cr_start a)) <= count (runs E info (jobof a)) (cr_start a) (Z.to_nat (cr_end a - cr_start a)))%nat).
  { apply count_le. intros t _ H. apply andb_true_iff in H. apply H. }
  lia.
Qed.

Lemma part_nonneg b q a : (0 <= part b q a)%Q.
Proof. unfold part, Qdiv. apply Qmult_le_0_compat; [change 0%Q with (inject_Z 0); rewrite <- Zle_Qle; lia|]. apply Qinv_le_0_compat, nq_nonneg. Qed.

Lemma part_len b q a : In a (x_tr E q) -> (NQ (len_of (cr_task a) q) * part b q a == inject_Z (Z.of_nat (cnt b q a)))%Q.
Proof.
  intros A. pose proof (cnt_len q a A) as L. unfold part. destruct (N.eq_dec (len_of (cr_task a) q) 0) as [Z0|NZ].
  - rewrite Z0. assert (C : cnt b q a = 0%nat) by (destruct b; [lia|lia|apply count_false; reflexivity|apply count_false; reflexivity]). rewrite C. reflexivity.
  - apply Qmult_div_r. unfold NQ. change 0%Q with (inject_Z 0). intros X. rewrite inject_Z_injective in X. destruct (len_of (cr_task a) q); [apply NZ; reflexivity|discriminate X].
Qed.

Lemma part_sum q a : In a (x_tr E q) -> (part BLOCKING_DIRECT q a + part BLOCKING_INDIRECT q a <= 1)%Q.
Proof.
  intros A. pose proof (cnt_len q a A) as L. unfold part. set (l := len_of (cr_task a) q) in *. destruct (N.eq_dec l 0) as [Z0|NZ].
  - rewrite Z0. unfold Qdiv. change (/ NQ 0)%Q with 0%Q. lra.
  - assert (P : (0 < NQ l)%Q) by (unfold NQ; change 0%Q with (inject_Z 0); rewrite <- Zlt_Qlt; lia).
    assert (S : (inject_Z (Z.of_nat (cnt BLOCKING_DIRECT q a)) + inject_Z (Z.of_nat (cnt BLOCKING_INDIRECT q a)) <= NQ l)%Q) by (unfold NQ; rewrite <- inject_Z_plus, <- Zle_Qle; lia).
    setoid_replace (inject_Z (Z.of_nat (cnt BLOCKING_DIRECT q a)) / NQ l + inject_Z (Z.of_nat (cnt BLOCKING_INDIRECT q a)) / NQ l)%Q with ((inject_Z (Z.of_nat (cnt BLOCKING_DIRECT q a)) + inject_Z (Z.of_nat (cnt BLOCKING_INDIRECT q a))) / NQ l)%Q by (field; lra).
    apply Qle_shift_div_r; [exact P|]. lra.
Qed.

Lemma part_le1 b q a : In a (x_tr E q) -> (part b q a <= 1)%Q.
Proof.
  intros A. pose proof (part_sum q a A). pose proof (part_nonneg BLOCKING_DIRECT q a). pose proof (part_nonneg BLOCKING_INDIRECT q a).
  destruct b; [lra|lra|..]; (unfold part, cnt, chg; rewrite count_false by reflexivity; unfold Qdiv; change (inject_Z (Z.of_nat 0)) with 0%Q; lra).
Qed.

Lemma part_pos b q a : pos b q a = false -> (part b q a == 0)%Q.
Proof. intros H. apply Nat.ltb_ge in H. unfold part. replace (cnt b q a) with 0%nat by lia. unfold Qdiv. change (inject_Z (Z.of_nat 0)) with 0%Q. lra. Qed.

Lemma assign_range v : (0 <= assign v <= 1)%Q.
Proof.
  unfold assign. destruct (v_type v); [| |destruct (enabled (v_res v)); lra|lra].
  all: destruct (nth_error (insts (v_task v) (v_res v)) (v_req v)) as [a|] eqn:X; [|lra]; apply nth_error_In, in_insts in X; split; [apply part_nonneg|apply part_le1; apply X].
Qed.

Lemma enabled_blocker q : enabled q = true -> exists b, blocker q b.
Proof.
  intros H. apply existsb_exists in H. destruct H as [a [A P]]. destruct (pos_true _ _ _ P) as [t [T C]]. destruct (charge_a_blocker q a t A T C) as [b [B _]]. exists b. exact B.
Qed.

Definition all_insts (q : nat) (rs : list rbound) : list creq := concat (map (fun r => insts (ti_id (rb_task r)) q) rs).

Lemma isum_assign b q rs : (b = BLOCKING_DIRECT \/ b = BLOCKING_INDIRECT) -> (forall r, In r rs -> rb_res r = q) ->
  (isum assign ti b rs <= qsum (part b q) (all_insts q rs))%Q.
Proof.
  intros HB' HR'. unfold isum, all_insts. rewrite qsum_concat, qsum_map. apply qsum_le. intros r Hr. unfold request_instances.
  eapply Qle_trans; [|apply (qsum_nth (part b q) (insts (ti_id (rb_task r)) q)); intros a _; apply part_nonneg].
  apply qsum_le. intros v _. unfold request_var. rewrite (HR' r Hr). unfold assign; cbn [v_type v_task v_res v_req]. destruct HB' as [-> | ->]; apply Qle_refl.
Qed.

Lemma in_all_insts q rs a : In a (all_insts q rs) -> In a (x_tr E q) /\ exists r, In r rs /\ cr_task a = ti_id (rb_task r).
Proof.
  intros H. apply in_concat in H. destruct H as [l [H1 H2]]. apply in_map_iff in H1. destruct H1 as [r [<- H1]]. apply in_insts in H2. split; [apply H2|]. exists r. split; [exact H1|apply H2].
Qed.

Lemma all_insts_nodup q rs : NoDup (map (fun r => ti_id (rb_task r)) rs) -> NoDup (all_insts q rs).
Proof.
  intros H. apply (nodup_concat cr_task (fun r => ti_id (rb_task r))); [exact H| |].
  - intros r _. apply NoDup_filter. apply (tr_nodup info). exact SE.
  - intros r a _ A. apply in_insts in A. apply A.
Qed.

(** at most one request with a positive part *)
Lemma arrival_one q rs : NoDup (map (fun r => ti_id (rb_task r)) rs) -> (forall r, In r rs -> rb_res r = q) ->
  (forall a a', In a (all_insts q rs) -> In a' (all_insts q rs) -> pos BLOCKING_ARRIVAL q a = true -> pos BLOCKING_ARRIVAL q a' = true -> a = a') ->
  (isum assign ti BLOCKING_ARRIVAL rs <= assign (arrival_enabled q))%Q.
Proof.
  intros ND HQ' U. eapply Qle_trans; [apply (isum_assign _ q); [right; reflexivity|exact HQ']|].
  unfold assign, arrival_enabled; cbn [v_type v_res]. destruct (enabled q) eqn:EN.
  - apply (qsum_one _ (pos BLOCKING_ARRIVAL q)); [apply all_insts_nodup; exact ND| | |exact U].
    + intros a A. apply part_le1. apply (in_all_insts q rs a A).
    + intros a _. apply part_pos.
  - rewrite qsum_zero; [apply Qle_refl|]. intros a A. apply part_pos. destruct (pos BLOCKING_INDIRECT q a) eqn:P; [|reflexivity].
    exfalso. assert (X : enabled q = true); [|congruence]. apply existsb_exists. exists a. split; [apply (in_all_insts q rs a A)|exact P].
Qed.
(** * The constraints *)
Lemma task_in x tx : nth_error info x = Some tx -> In tx info /\ ti_id tx = x.
Proof. intros H. destruct (wf_nth info x tx WF H). auto. Qed.

Lemma request_exists q b tx : In b (x_tr E q) -> nth_error info (cr_task b) = Some tx -> exists r, In r (ti_requests tx) /\ q_res r = q /\ (0 < q_num r)%N.
Proof.
  intros B X. destruct (se_spec _ _ SE q b B) as [tx' [r [X' [R [Q _]]]]]. rewrite X in X'. injection X' as <-. exists r. split; [exact R|split; [exact Q|]].
  pose proof (se_number _ _ SE q (cr_task b) (cr_job b) tx r X R Q) as N0.
  assert (I : In b (filter (is_job (cr_task b) (cr_job b)) (x_tr E q))) by (apply filter_In; split; [exact B|unfold is_job; rewrite !Nat.eqb_refl; reflexivity]).
  destruct (filter (is_job (cr_task b) (cr_job b)) (x_tr E q)); [destruct I|cbn in N0; lia].
Qed.

Lemma num_requests_pos q b tx : In b (x_tr E q) -> nth_error info (cr_task b) = Some tx -> (0 < get_num_requests_for tx q)%N.
Proof.
  intros B X. destruct (request_exists q b tx B X) as [r [R [Q P]]]. unfold get_num_requests_for. destruct (find _ _) as [r'|] eqn:F.
  - apply find_some in F. destruct F as [R' Q']. apply Nat.eqb_eq in Q'. rewrite (nodup_res tx r' r); [exact P|apply WF, (task_in _ _ X)|exact R'|exact R|congruence].
  - pose proof (find_none _ _ F r R) as N. cbn in N. apply Nat.eqb_neq in N. congruence.
Qed.

Lemma num_requests_bound x k tx q : nth_error info x = Some tx -> (N.of_nat (length (filter (is_job x k) (x_tr E q))) <= get_num_requests_for tx q)%N.
Proof.
  intros X. unfold get_num_requests_for. destruct (find _ _) as [r'|] eqn:F.
  - apply find_some in F. destruct F as [R' Q']. apply Nat.eqb_eq in Q'. apply (se_number _ _ SE q x k tx r' X R' Q').
  - rewrite filter_none; [cbn; lia|]. intros b B. destruct (is_job x k b) eqn:J; [|reflexivity]. exfalso. unfold is_job in J. apply andb_true_iff in J. destruct J as [J _]. apply Nat.eqb_eq in J. subst x.
    destruct (request_exists q b tx B X) as [r [R [Q _]]]. pose proof (find_none _ _ F r R) as N. cbn in N. apply Nat.eqb_neq in N. congruence.
Qed.

(** the jobs of a local task that are not of lower priority are released in the window *)
Lemma job_in_window t j : win t -> x_sched E c t = Some j -> low j = false ->
  exists th, nth_error info (fst j) = Some th /\ ti_cluster th = c /\ (ti_prio th <= p)%N /\ ts <= x_rel E (fst j) (snd j) <= t /\ pending E j t.
Proof.
  intros T S L. destruct (se_sched _ _ SE c t j S) as [P [th [K C]]]. exists th. split; [exact K|split; [exact C|]]. unfold low in L. rewrite K in L. apply N.ltb_ge in L. split; [exact L|].
  split; [|exact P]. unfold pending in P. unfold win in T. destruct (Z.lt_ge_cases (x_rel E (fst j) (snd j)) ts) as [X|X]; [|lia]. pose proof (HQ (fst j) (snd j) th K C L X). lia.
Qed.

Definition released (x : nat) (b : creq) : bool := Nat.eqb (cr_task b) x && ((ts <=? x_rel E x (cr_job b)) && (x_rel E x (cr_job b) <? ts + Z.of_nat n)).
Definition local_reqs (q x : nat) : list creq := filter (released x) (x_tr E q).

Lemma in_local_reqs q x b : In b (local_reqs q x) <-> In b (x_tr E q) /\ cr_task b = x /\ ts <= x_rel E x (cr_job b) < ts + Z.of_nat n.
Proof. unfold local_reqs, released. rewrite filter_In, !andb_true_iff, Nat.eqb_eq, Z.leb_le, Z.ltb_lt. tauto. Qed.

Lemma period_pos x tx : nth_error info x = Some tx -> (0 < ti_period tx)%N.
Proof. intros X. apply WF, (task_in _ _ X). Qed.

Lemma local_reqs_length q x tx : nth_error info x = Some tx ->
  (N.of_nat (length (local_reqs q x)) <= uni_fp_local_get_max_num_jobs tx (ti_response ti) * get_num_requests_for tx q)%N.
Proof.
  intros X. unfold uni_fp_local_get_max_num_jobs. apply (requests_bound (x_rel E x) (ti_period tx) (period_pos x tx X) (fun k => proj2 (se_rel _ _ SE x k tx X)) x) with (lo := ts).
  - intros b B. apply in_local_reqs in B. destruct B as [_ [C T]]. split; [exact C|lia].
  - intros k. eapply N.le_trans; [|apply (num_requests_bound x k tx q X)]. pose proof (filter_filter_le (is_job x k) (released x) (x_tr E q)). unfold local_reqs. lia.
Qed.

Lemma num_requests_sum tx q (f : N) : (f * get_num_requests_for tx q <= sum_over (fun r => f * q_num (rb_req r)) (requests_for tx q))%N.
Proof.
  unfold get_num_requests_for. destruct (find _ _) as [r|] eqn:F; [|lia]. apply find_some in F. destruct F as [R Q]. apply Nat.eqb_eq in Q.
  apply (sum_over_in (fun r => f * q_num (rb_req r))%N (requests_for tx q) (RB tx r)). apply in_requests_for. cbn. auto.
Qed.

Lemma pos_zero b r v : (b = BLOCKING_DIRECT \/ b = BLOCKING_INDIRECT) -> (forall a, In a (insts (ti_id (rb_task r)) (rb_res r)) -> pos b (rb_res r) a = true -> False) ->
  (assign (request_var r v b) == 0)%Q.
Proof.
  intros B H. unfold assign, request_var; cbn [v_type v_task v_res v_req].
  assert (G : (match nth_error (insts (ti_id (rb_task r)) (rb_res r)) v with Some a => part b (rb_res r) a | None => 0 end == 0)%Q).
  { destruct (nth_error _ v) as [a|] eqn:X; [|reflexivity]. apply part_pos. destruct (pos b (rb_res r) a) eqn:P; [|reflexivity]. exfalso. apply (H a); [eapply nth_error_In; exact X|exact P]. }
  destruct B as [-> | ->]; exact G.
Qed.

Lemma isum_zero b t : (b = BLOCKING_DIRECT \/ b = BLOCKING_INDIRECT) -> (forall q a, In a (insts (ti_id t) q) -> pos b q a = true -> False) -> (isum assign ti b (requests_of t) == 0)%Q.
Proof.
  intros B H. unfold isum. apply qsum_zero. intros r R. apply in_requests_of in R. destruct R as [R _]. apply qsum_zero. intros v _. apply pos_zero; [exact B|]. rewrite R. apply H.
Qed.

Lemma isum_direct q rs : (forall r, In r rs -> rb_res r = q) ->
  (isum assign ti BLOCKING_DIRECT rs <= inject_Z (Z.of_nat (length (filter (pos BLOCKING_DIRECT q) (all_insts q rs)))))%Q.
Proof.
  intros H. eapply Qle_trans; [apply (isum_assign _ q); [left; reflexivity|exact H]|]. apply qsum_pos.
  - intros a A. apply part_le1. apply (in_all_insts q rs a A).
  - intros a _. apply part_pos.
Qed.

Lemma tasks_nodup f q : NoDup (map (fun r => ti_id (rb_task r)) (concat (map (fun t => requests_for t q) (filter f info)))).
Proof.
  apply nodup_ids; [apply nodup_filter_id, wf_nodup_id, WF|]. intros t T. apply filter_In in T. apply WF. apply T.
Qed.

Lemma pos_direct q a : pos BLOCKING_DIRECT q a = true -> exists t j b th, win t /\ x_sched E c t = Some j /\ low j = false /\ cr_start a <= t < cr_end a /\
  In b (x_tr E q) /\ jobof b = j /\ cr_issue b <= t < cr_start b /\ global_resource info q /\
  nth_error info (fst j) = Some th /\ ti_cluster th = c /\ (ti_prio th <= p)%N /\ ts <= x_rel E (fst j) (snd j) <= t /\ pending E j t.
Proof.
  intros P. destruct (pos_true _ _ _ P) as [t [T C]]. cbn [chg] in C. apply charge_d_iff in C. destruct C as [j [S [L [W TA]]]].
  pose proof (waiting_global j q t W) as G. apply waiting_iff in W. destruct W as [b [B [J TB]]]. destruct (job_in_window t j T S L) as [th [K [C [PR [RE PE]]]]].
  exists t, j, b, th. repeat (split; [assumption|]). assumption.
Qed.

Lemma windows_ok q tx : get_num_requests_for ti q = 0%N -> In tx info ->
  (isum assign ti BLOCKING_DIRECT (requests_for tx q) <= NQ (count_requests_in_contention_windows info ti tx q))%Q.
Proof.
  intros Z0 TX. eapply Qle_trans; [apply (isum_direct q); intros r R; apply in_requests_for in R; apply R|]. unfold NQ. rewrite <- Zle_Qle.
  set (l := filter (pos BLOCKING_DIRECT q) (all_insts q (requests_for tx q))).
  pose proof (wf_id info tx WF TX) as X. set (x := ti_id tx) in *.
  assert (M : forall a, In a l -> In a (x_tr E q) /\ cr_task a = x /\ pos BLOCKING_DIRECT q a = true).
  { intros a A. apply filter_In in A. destruct A as [A P]. apply in_all_insts in A. destruct A as [A [r [R C]]]. apply in_requests_for in R. destruct R as [R _]. rewrite R in C. auto. }
  unfold count_requests_in_contention_windows. destruct (N.eqb_spec (get_num_requests_for tx q) 0) as [NX|NX].
  { destruct l as [|a l']; [cbn; lia|]. destruct (M a (or_introl eq_refl)) as [A [C _]]. rewrite <- C in X. pose proof (num_requests_pos q a tx A X). lia. }
  set (nx := get_num_requests_for tx q) in *.
  set (ks := fun th => nodup Nat.eq_dec (map cr_job (local_reqs q (ti_id th)))).
  set (near := fun (s : taskinfo * nat) (a : creq) => let r := x_rel E (ti_id (fst s)) (snd s) in
    (r - Z.of_N (ti_response tx) <=? x_rel E x (cr_job a)) && (x_rel E x (cr_job a) <? r + Z.of_N (ti_response (fst s)))).
  assert (COV : (length l <= nsum (fun s => length (filter (near s) l)) (concat (map (fun th => map (pair th) (ks th)) (local_highereq info ti))))%nat).
  { apply cover_count. intros a A. destruct (M a A) as [A1 [A2 A3]]. destruct (pos_direct q a A3) as [t [[h k] [b [th [T [S [L [TA [B [J [TB [G [K [C [PR [RE PE]]]]]]]]]]]]]]]].
    cbn [fst snd] in *. unfold win in T. destruct (task_in h th K) as [TH ID]. exists (th, k). split.
    - apply in_concat. exists (map (pair th) (ks th)). split.
      + apply in_map_iff. exists th. split; [reflexivity|]. unfold local_highereq. apply filter_In. split; [exact TH|].
        fold c p. rewrite C, Nat.eqb_refl. rewrite (proj2 (N.leb_le _ _) PR), andb_true_r. cbn [andb]. apply negb_true_iff, Nat.eqb_neq. intros EQ.
        injection J as J1 J2. rewrite (proj2 (task_in i ti HI)), ID in EQ. assert (KB : nth_error info (cr_task b) = Some ti) by (rewrite J1, EQ; exact HI). pose proof (num_requests_pos q b ti B KB). lia.
      + apply in_map. unfold ks. apply nodup_In. apply in_map_iff. exists b. injection J as J1 J2. split; [exact J2|]. apply in_local_reqs. rewrite ID, J1, J2. repeat split; [exact B|lia|lia].
    - unfold near; cbn [fst snd]. rewrite ID. pose proof (se_times _ _ SE q a A1) as TI. assert (PA := holding_pending q a t A1 ltac:(lia)). rewrite A2 in PA.
      destruct (job_span x (cr_job a) tx t (x_rel E h k) X PA ltac:(lia) ltac:(lia)) as [S1 _].
      destruct (job_span h k th t t K PE ltac:(lia) ltac:(lia)) as [_ S2]. specialize (S2 ltac:(lia)).
      apply andb_true_iff. rewrite Z.leb_le, Z.ltb_lt. lia. }
  rewrite nsum_concat in COV.
  assert (NEAR : forall th k, In th (local_highereq info ti) -> (N.of_nat (length (filter (near (th, k)) l)) <= get_max_num_jobs tx (ti_response th) * nx)%N).
  { intros th k _. unfold get_max_num_jobs. apply (requests_bound (x_rel E x) (ti_period tx) (period_pos x tx X) (fun k => proj2 (se_rel _ _ SE x k tx X)) x) with (lo := x_rel E (ti_id th) k - Z.of_N (ti_response tx)).
    - intros a A. apply filter_In in A. destruct A as [A NA]. split; [apply (M a A)|]. unfold near in NA; cbn [fst snd] in NA. apply andb_true_iff in NA. rewrite Z.leb_le, Z.ltb_lt in NA. lia.
    - intros k'. eapply N.le_trans; [|apply (num_requests_bound x k' tx q X)]. pose proof (filter_filter_le (is_job x k') (near (th, k)) l) as F1.
      assert (F2 : (length (filter (is_job x k') l) <= length (filter (is_job x k') (all_insts q (requests_for tx q))))%nat) by (unfold l; apply filter_filter_le).
      assert (F3 : (length (filter (is_job x k') (all_insts q (requests_for tx q))) <= length (filter (is_job x k') (x_tr E q)))%nat).
      { pose proof (nodup_requests_for tx q (proj2 (proj2 WF tx TX))) as LE. unfold all_insts. pose proof (in_requests_for tx q) as IR.
        destruct (requests_for tx q) as [|r [|r' rs]]; cbn [map concat length] in *; [cbn; lia| |lia]. rewrite app_nil_r. apply filter_filter_le. }
      lia. }
  assert (TOT : (N.of_nat (nsum (fun th => nsum (fun s => length (filter (near s) l)) (map (pair th) (ks th))) (local_highereq info ti)) <=
    sum_over (fun th => (if (get_num_requests_for th q =? 0)%N then 0 else uni_fp_local_get_max_num_jobs th (ti_response ti) * get_max_num_jobs tx (ti_response th)) * nx) (local_highereq info ti))%N).
  { apply nsum_sum_over. intros th TH. assert (TH' := TH). apply filter_In in TH'. destruct TH' as [TI _]. pose proof (wf_id info th WF TI) as K.
    assert (LK : (N.of_nat (length (ks th)) <= if (get_num_requests_for th q =? 0)%N then 0 else uni_fp_local_get_max_num_jobs th (ti_response ti))%N).
    { destruct (N.eqb_spec (get_num_requests_for th q) 0) as [N0|N0].
      - unfold ks. destruct (local_reqs q (ti_id th)) as [|b r] eqn:LR; [cbn; lia|]. exfalso. assert (B : In b (local_reqs q (ti_id th))) by (rewrite LR; left; reflexivity).
        apply in_local_reqs in B. destruct B as [B [C _]]. rewrite <- C in K. pose proof (num_requests_pos q b th B K). lia.
      - unfold uni_fp_local_get_max_num_jobs. apply (jobs_bound (x_rel E (ti_id th)) (ti_period th) (period_pos _ th K) (fun k => proj2 (se_rel _ _ SE (ti_id th) k th K))) with (lo := ts).
        + apply NoDup_nodup.
        + intros k Hk. unfold ks in Hk. apply nodup_In, in_map_iff in Hk. destruct Hk as [b [<- B]]. apply in_local_reqs in B. lia. }
    assert (C : (nsum (fun s => length (filter (near s) l)) (map (pair th) (ks th)) <= length (map (pair th) (ks th)) * N.to_nat (get_max_num_jobs tx (ti_response th) * nx))%nat).
    { apply nsum_const. intros s Hs. apply in_map_iff in Hs. destruct Hs as [k [<- _]]. pose proof (NEAR th k TH). lia. }
    rewrite map_length in C. destruct (get_num_requests_for th q =? 0)%N.
    - assert (length (ks th) = 0%nat) as Z1 by lia. rewrite Z1 in C. cbn in C. lia.
    - apply (N.mul_le_mono_r _ _ (get_max_num_jobs tx (ti_response th) * nx)) in LK. rewrite <- N.mul_assoc. eapply N.le_trans; [|exact LK].
      apply Nat2N_le in C. rewrite Nat2N.inj_mul, N2Nat.id in C. exact C. }
  assert (SM : forall f, sum_over (fun th => (f th * nx)%N) (local_highereq info ti) = (sum_over f (local_highereq info ti) * nx)%N).
  { intros f. apply sum_over_mul. }
  rewrite SM in TOT. lia.
Qed.

Lemma common_holds : common_ok info ti assign.
Proof.
  destruct (task_in i ti HI) as [TIN TID]. constructor.
  - intros t r v T _ R V. unfold assign, request_var; cbn [v_type v_task v_res v_req]. destruct (nth_error _ v) as [a|] eqn:X; [|lra].
    apply nth_error_In, in_insts in X. apply part_sum. apply X.
  - intros q Q CE. unfold assign, arrival_enabled; cbn [v_type v_res]. destruct (enabled q) eqn:EN; [exfalso|reflexivity].
    destruct (enabled_blocker q EN) as [b [[_ [G|[_ [p' [[[t [[T [r [R RQ]]] PT]] _] LE]]]]] _]].
    + destruct G as [t [u [[T [r [R RQ]]] [[U [r' [R' RQ']]] NE]]]]. apply NE. apply local_resources_spec in Q. destruct Q as [_ Q]. apply (Q t r u r'); assumption.
    + rewrite ceilings_nth in CE. apply (N.lt_irrefl (ti_prio ti)). eapply N.lt_le_trans; [exact CE|]. apply ceiling_spec. right. exists (RB t r). split; [|cbn; subst p'; exact LE].
      apply filter_In. split; [apply in_all_requests; exists t, r; auto|apply Nat.eqb_eq; exact RQ].
  - apply (qsum_one _ enabled); [apply all_resources_nodup| | |].
    + intros q _. apply assign_range.
    + intros q _ H. unfold assign, arrival_enabled; cbn [v_type v_res]. rewrite H. reflexivity.
    + intros q q' _ _ H H'. destruct (enabled_blocker q H) as [b B], (enabled_blocker q' H') as [b' B']. apply (blocker_unique q b q' b' B B').
  - intros q. unfold assign, arrival_enabled; cbn [v_type v_res]. destruct (enabled q); [right|left]; reflexivity.
  - intros q _ Z0. unfold assign, arrival_enabled; cbn [v_type v_res]. destruct (enabled q) eqn:EN; [exfalso|reflexivity].
    destruct (enabled_blocker q EN) as [b [[B _] [LO [[k [K C]] _]]]]. destruct (request_exists q b k B K) as [r [R [RQ RN]]].
    assert (I1 : In k (local_lp info ti)). { unfold local_lp. apply filter_In. split; [apply (task_in _ _ K)|]. fold c p. rewrite C, Nat.eqb_refl. cbn. apply N.ltb_lt. apply (low_not_own (jobof b) k LO K). }
    assert (I2 : In (RB k r) (requests_for k q)) by (apply in_requests_for; cbn; auto).
    pose proof (sum_over_in (fun t => sum_over (fun r => q_num (rb_req r)) (requests_for t q)) _ _ I1) as S1. pose proof (sum_over_in (fun r => q_num (rb_req r)) _ _ I2) as S2. cbn [rb_req] in S2. cbv beta in S1. lia.
  - intros t T C PR. rewrite isum_zero; [apply Qle_refl|right; reflexivity|]. intros q a A P. apply in_insts in A. destruct A as [A [TA _]]. destruct (pos_true _ _ _ P) as [u [U CH]].
    pose proof (wf_id info t WF T) as K. rewrite <- TA in K. pose proof (charge_a_low q a u t A U CH K C). fold p in PR. lia.
  - intros t T C NE. apply isum_zero; [left; reflexivity|]. intros q a A P. apply in_insts in A. destruct A as [A [TA _]]. destruct (pos_true _ _ _ P) as [u [U CH]].
    pose proof (wf_id info t WF T) as K. rewrite <- TA in K. apply (charge_d_remote q a u t A CH K C).
  - intros q _. apply arrival_one.
    + apply tasks_nodup.
    + intros r R. apply in_concat in R. destruct R as [l [H1 H2]]. apply in_map_iff in H1. destruct H1 as [t [<- _]]. apply in_requests_for in H2. apply H2.
    + assert (G : forall a, In a (all_insts q (concat (map (fun t => requests_for t q) (local_lp info ti)))) -> pos BLOCKING_ARRIVAL q a = true -> blocker q a).
      { intros a A P. apply in_all_insts in A. destruct A as [A [r [R TA]]]. apply in_concat in R. destruct R as [l [H1 H2]]. apply in_map_iff in H1. destruct H1 as [t [<- T]].
        apply in_requests_for in H2. destruct H2 as [HT _]. rewrite HT in TA. apply filter_In in T. destruct T as [T X]. apply andb_true_iff in X. destruct X as [X _]. apply Nat.eqb_eq in X.
        pose proof (wf_id info t WF T) as K. rewrite <- TA in K. destruct (pos_true _ _ _ P) as [u [U CH]]. destruct (charge_a_blocker q a u A U CH) as [b [B [[_ [_ [_ Y]]]| ->]]]; [destruct (Y t K X)|exact B]. }
      intros a a' A A' P P'. apply (blocker_unique q a q a' (G a A P) (G a' A' P')).
  - intros q tx _ Z0 TX _. apply windows_ok; assumption.
Qed.

(** * FIFO *)
Section Fifo.
Hypothesis FI : fifo_order info E.

Lemma remote_one q a a' b t t' tx tx' : global_resource info q -> In a (x_tr E q) -> In a' (x_tr E q) -> In b (x_tr E q) ->
  nth_error info (cr_task a) = Some tx -> nth_error info (cr_task a') = Some tx' -> ti_cluster tx = ti_cluster tx' ->
  cr_issue b <= t < cr_start b -> cr_issue b <= t' < cr_start b -> cr_start a <= t < cr_end a -> cr_start a' <= t' < cr_end a' -> a = a'.
Proof.
  intros G A A' B X X' C TB TB' TA TA'. pose proof (se_times _ _ SE q a A). pose proof (se_times _ _ SE q a' A'). pose proof (se_times _ _ SE q b B).
  assert (I1 : cr_issue a <= cr_issue b) by (destruct (Z.le_gt_cases (cr_issue a) (cr_issue b)) as [Y|Y]; [exact Y|]; pose proof (FI q b a G B A Y); lia).
  assert (I2 : cr_issue a' <= cr_issue b) by (destruct (Z.le_gt_cases (cr_issue a') (cr_issue b)) as [Y|Y]; [exact Y|]; pose proof (FI q b a' G B A' Y); lia).
  assert (R1 : runs E info (jobof a) (cr_issue b) = true) by (apply (se_nonpreemptive _ _ SE q a); [exact A|exact G|lia]).
  assert (R2 : runs E info (jobof a') (cr_issue b) = true) by (apply (se_nonpreemptive _ _ SE q a'); [exact A'|exact G|lia]).
  apply (runs_iff E info (jobof a) _ tx X) in R1. apply (runs_iff E info (jobof a') _ tx' X') in R2. rewrite C, R2 in R1. injection R1 as R1 R3.
  apply (one_request info E SE q q a a' (cr_issue b) A A'); [unfold jobof; congruence|lia|lia].
Qed.

Lemma direct_ok q c' : c' <> c -> (isum assign ti BLOCKING_DIRECT (cluster_requests_for info c' q) <= NQ (count_local_hp_reqs info ti q))%Q.
Proof.
  intros NC. eapply Qle_trans; [apply (isum_direct q); intros r R; apply in_cluster_requests in R; apply R|]. unfold NQ. rewrite <- Zle_Qle.
  set (rs := cluster_requests_for info c' q). set (l := filter (pos BLOCKING_DIRECT q) (all_insts q rs)).
  set (W := concat (map (fun th => local_reqs q (ti_id th)) (ti :: local_hp info ti))).
  assert (M : forall a, In a l -> In a (x_tr E q) /\ pos BLOCKING_DIRECT q a = true /\ exists tx, nth_error info (cr_task a) = Some tx /\ ti_cluster tx = c').
  { intros a A. apply filter_In in A. destruct A as [A P]. apply in_all_insts in A. destruct A as [A [r [R C]]]. apply in_cluster_requests in R. destruct R as [R1 [R2 _]]. split; [exact A|split; [exact P|]].
    exists (rb_task r). split; [rewrite C; apply (wf_id info _ WF R1)|exact R2]. }
  assert (LW : (length l <= length W)%nat).
  { apply (rel_inj (fun a b => exists t, cr_issue b <= t < cr_start b /\ cr_start a <= t < cr_end a /\ In b (x_tr E q) /\ global_resource info q)).
    - apply NoDup_filter, all_insts_nodup. unfold rs, cluster_requests_for. rewrite split_by_cluster_nth. apply tasks_nodup.
    - intros a A. destruct (M a A) as [A1 [A3 _]]. destruct (pos_direct q a A3) as [t [[h k] [b [th [T [S [L [TA [B [J [TB [G [K [C [PR [RE PE]]]]]]]]]]]]]]]].
      cbn [fst snd] in *. unfold win in T. destruct (task_in h th K) as [TH ID]. exists b. split; [|exists t; auto]. injection J as J1 J2.
      unfold W. apply in_concat. exists (local_reqs q (ti_id th)). split.
      + apply in_map_iff. exists th. split; [reflexivity|]. destruct (N.eq_dec (ti_prio th) p) as [EQ|NE].
        * left. apply DP; [apply (task_in i ti HI)|exact TH|symmetry; exact C|symmetry; exact EQ].
        * right. unfold local_hp. apply filter_In. split; [exact TH|]. fold c p. rewrite C, Nat.eqb_refl. cbn. apply N.ltb_lt. lia.
      + apply in_local_reqs. rewrite ID, J1, J2. repeat split; [exact B|lia|lia].
    - intros a a' b A A' _ [t [TB [TA [B G]]]] [t' [TB' [TA' _]]]. destruct (M a A) as [A1 [_ [tx [X C]]]], (M a' A') as [A1' [_ [tx' [X' C']]]].
      apply (remote_one q a a' b t t' tx tx' G A1 A1' B X X'); [congruence|assumption..]. }
  assert (LB : (N.of_nat (length W) <= count_local_hp_reqs info ti q)%N).
  { unfold W. rewrite nsum_length. cbn [nsum fold_right map]. fold (nsum (fun b => length (local_reqs q (ti_id b))) (local_hp info ti)). unfold count_local_hp_reqs.
    assert (L1 : (N.of_nat (length (local_reqs q (ti_id ti))) <= sum_over (fun r => q_num (rb_req r)) (requests_for ti q))%N).
    { rewrite (proj2 (task_in i ti HI)). pose proof (local_reqs_length q i ti HI) as L.
      assert (U : (uni_fp_local_get_max_num_jobs ti (ti_response ti) <= 1)%N).
      { destruct (N.le_gt_cases (uni_fp_local_get_max_num_jobs ti (ti_response ti)) 1) as [Y|Y]; [exact Y|]. apply divide_with_ceil_spec in Y; [lia|apply (period_pos i ti HI)]. }
      pose proof (num_requests_sum ti q 1) as S. assert (EQ : sum_over (fun r => (1 * q_num (rb_req r))%N) (requests_for ti q) = sum_over (fun r => q_num (rb_req r)) (requests_for ti q)).
      { generalize (requests_for ti q). clear. intros l. induction l as [|r rr IH]; [reflexivity|]. rewrite !sum_over_cons, IH. lia. } nia. }
    assert (L2 : (N.of_nat (nsum (fun b => length (local_reqs q (ti_id b))) (local_hp info ti)) <= sum_over (fun t => sum_over (fun r => get_max_num_requests_in_busy_window r (ti_response ti)) (requests_for t q)) (local_hp info ti))%N).
    { apply nsum_sum_over. intros th TH. apply filter_In in TH. destruct TH as [TH _]. pose proof (wf_id info th WF TH) as K. eapply N.le_trans; [apply (local_reqs_length q (ti_id th) th K)|].
      eapply N.le_trans; [apply num_requests_sum|].
      assert (G : forall l, (forall r, In r l -> rb_task r = th) -> sum_over (fun r => (uni_fp_local_get_max_num_jobs th (ti_response ti) * q_num (rb_req r))%N) l = sum_over (fun r => get_max_num_requests_in_busy_window r (ti_response ti)) l).
      { induction l0 as [|r rr IH]; intros H; [reflexivity|]. rewrite !sum_over_cons, IH by (intros r0 H0; apply H; right; exact H0). unfold get_max_num_requests_in_busy_window. rewrite (H r (or_introl eq_refl)). reflexivity. }
      rewrite G; [lia|]. intros r R. apply in_requests_for in R. apply R. }
    lia. }
  lia.
Qed.

Lemma msrp_holds : msrp_ok info ti assign.
Proof.
  constructor.
  - intros q c' _ NC. apply direct_ok. exact NC.
  - intros q c' _ NC. apply arrival_one.
    + unfold cluster_requests_for. rewrite split_by_cluster_nth. apply tasks_nodup.
    + intros r R. apply in_cluster_requests in R. apply R.
    + assert (G : forall a, In a (all_insts q (cluster_requests_for info c' q)) -> pos BLOCKING_ARRIVAL q a = true -> exists b tx t,
        blocker q b /\ nth_error info (cr_task a) = Some tx /\ ti_cluster tx = c' /\ In a (x_tr E q) /\ cr_issue b <= t < cr_start b /\ cr_start a <= t < cr_end a /\ global_resource info q).
      { intros a A P. apply in_all_insts in A. destruct A as [A [r [R C]]]. apply in_cluster_requests in R. destruct R as [R1 [R2 _]].
        pose proof (wf_id info _ WF R1) as K. rewrite <- C in K. destruct (pos_true _ _ _ P) as [u [U CH]]. destruct (charge_a_blocker q a u A U CH) as [b [B [[Y1 [Y2 [Y3 _]]]|EQ]]].
        - exists b, (rb_task r), u. repeat (split; [assumption|]). assumption.
        - subst b. destruct B as [_ [_ [[k [K' C']] _]]]. rewrite K in K'. injection K' as <-. exfalso. apply NC. rewrite <- R2. exact C'. }
      intros a a' A A' P P'. destruct (G a A P) as [b [tx [t [B [X [C [A1 [TB [TA GL]]]]]]]]], (G a' A' P') as [b' [tx' [t' [B' [X' [C' [A1' [TB' [TA' _]]]]]]]]].
      destruct (blocker_unique q b q b' B B') as [_ <-]. apply (remote_one q a a' b t t' tx tx' GL A1 A1' (proj1 (proj1 B)) X X'); [congruence|assumption..].
Qed.
End Fifo.

(** * The objective *)
Definition triples : list (rbound * nat) :=
  concat (map (fun t => concat (map (fun r => map (pair r) (request_instances r ti)) (requests_of t))) (tasks_except info ti)).

Lemma objective_triples x : (objective info ti x == qsum (fun s => NQ (rb_len (fst s)) * (x (request_var (fst s) (snd s) BLOCKING_DIRECT) + x (request_var (fst s) (snd s) BLOCKING_ARRIVAL))) triples)%Q.
Proof.
  unfold objective, triples. rewrite qsum_concat, qsum_map. apply qsum_ext. intros t _. rewrite qsum_concat, qsum_map. apply qsum_ext. intros r _. rewrite qsum_map. reflexivity.
Qed.

Definition charged (s : rbound * nat) (t : Z) : bool :=
  match nth_error (insts (ti_id (rb_task (fst s))) (rb_res (fst s))) (snd s) with
  | Some a => charge_d (rb_res (fst s)) a t || charge_a (rb_res (fst s)) a t
  | None => false
  end.

Lemma lost_le_objective : (inject_Z (Z.of_nat (count (lost info E c p) ts n)) <= objective info ti assign)%Q.
Proof.
  assert (COV : (count (lost info E c p) ts n <= nsum (fun s => count (charged s) ts n) triples)%nat).
  { apply count_cover. intros t T L. destruct (lost_charged t T L) as [q [a [A CH]]].
    destruct (se_spec _ _ SE q a A) as [tx [r [X [R [RQ _]]]]]. destruct (task_in _ _ X) as [TX ID].
    destruct (charge_runs q a t A CH) as [_ TA].
    assert (AI : In a (insts (cr_task a) q)). { apply in_insts. unfold win in T. repeat split; [exact A|lia|lia]. }
    apply In_nth_error in AI. destruct AI as [v V].
    assert (VL : (v < length (insts (cr_task a) q))%nat) by (apply nth_error_Some; congruence).
    pose proof (insts_length (cr_task a) q tx r X R RQ) as LEN.
    exists (RB tx r, v). split.
    - unfold triples. apply in_concat. exists (concat (map (fun r => map (pair r) (request_instances r ti)) (requests_of tx))). split.
      + apply in_map_iff. exists tx. split; [reflexivity|]. unfold tasks_except. apply filter_In. split; [exact TX|]. apply negb_true_iff, Nat.eqb_neq. intros EQ.
        rewrite (proj2 (task_in i ti HI)), ID in EQ. assert (tx = ti) by congruence. subst tx.
        destruct CH as [CH|CH]; [apply (charge_d_remote q a t ti A CH X eq_refl)|pose proof (charge_a_low q a t ti A T CH X eq_refl) as Y; unfold p in Y; lia].
      + apply in_concat. exists (map (pair (RB tx r)) (request_instances (RB tx r) ti)). split.
        * apply in_map_iff. exists (RB tx r). split; [reflexivity|]. apply in_requests_of. cbn. auto.
        * apply in_map. apply in_seq. lia.
    - unfold charged; cbn [fst snd rb_task]. unfold rb_res; cbn [rb_req]. rewrite ID, RQ, V. apply orb_true_iff. exact CH. }
  rewrite objective_triples.
  assert (G : forall l, (forall s, In s l -> In s triples) -> (inject_Z (Z.of_nat (nsum (fun s => count (charged s) ts n) l)) <=
    qsum (fun s => NQ (rb_len (fst s)) * (assign (request_var (fst s) (snd s) BLOCKING_DIRECT) + assign (request_var (fst s) (snd s) BLOCKING_ARRIVAL))) l)%Q).
  { induction l as [|[r v] l IH]; intros H; [apply Qle_refl|]. rewrite qsum_cons. cbn [nsum fold_right]. fold (nsum (fun s => count (charged s) ts n) l). rewrite Nat2Z.inj_add, inject_Z_plus.
    apply Qplus_le_compat; [|apply IH; intros s Hs; apply H; right; exact Hs]. cbn [fst snd]. specialize (H (r, v) (or_introl eq_refl)).
    unfold triples in H. apply in_concat in H. destruct H as [l1 [H1 H2]]. apply in_map_iff in H1. destruct H1 as [t [<- T]]. apply filter_In in T. destruct T as [T _].
    apply in_concat in H2. destruct H2 as [l2 [H2 H3]]. apply in_map_iff in H2. destruct H2 as [r' [<- R]]. apply in_map_iff in H3. destruct H3 as [v' [EQ _]]. injection EQ as -> ->.
    apply in_requests_of in R. destruct R as [RT RI].
    unfold charged, assign, request_var; cbn [fst snd v_type v_task v_res v_req]. destruct (nth_error _ v) as [a|] eqn:V.
    - apply nth_error_In, in_insts in V. destruct V as [A [TA _]].
      assert (LE : rb_len r = len_of (cr_task a) (rb_res r)). { rewrite TA, RT. symmetry. apply (len_of_spec _ _ t (rb_req r)); [apply (wf_id info t WF T)|exact RI|reflexivity]. }
      rewrite LE. rewrite Qmult_plus_distr_r, !(part_len _ _ _ A), <- inject_Z_plus, <- Zle_Qle.
      assert (C : (count (fun t => charge_d (rb_res r) a t || charge_a (rb_res r) a t) ts n <= cnt BLOCKING_DIRECT (rb_res r) a + cnt BLOCKING_INDIRECT (rb_res r) a)%nat).
      { unfold cnt, chg. clear. revert ts. induction n as [|m IH]; intros u; cbn [count]; [lia|]. specialize (IH (u + 1)). destruct (charge_d (rb_res r) a u), (charge_a (rb_res r) a u); cbn [orb]; lia. }
      lia.
    - rewrite count_false by reflexivity. change (inject_Z (Z.of_nat 0)) with 0%Q. assert (Z1 : (NQ (rb_len r) * (0 + 0) == 0)%Q) by ring. rewrite Z1. apply Qle_refl. }
  eapply Qle_trans; [|apply (G triples (fun s H => H))]. rewrite <- Zle_Qle. lia.
Qed.
End Window.
