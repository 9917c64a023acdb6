(** The results of the reader-writer analyses: merged request counts, sums over
    the resources, spans and arrival blocking. *)
From Coq Require Import NArith ZArith List Bool Sorted Permutation Lia Arith.
From Verif Require Import ModelLocking ModelResources ModelRW SpecLocking SpecQueue SpecRW ProofLocking ProofSpin ProofQueue ProofLockingMono ProofRW ProofPF ProofLaminar ProofTF.
Import ListNotations.
Open Scope N_scope.

(** * merge_rw_requests *)
Definition is_for (d : bool) (r : nat) (q : reqspec) : bool := Nat.eqb (q_res q) r && Bool.eqb (q_read q) d.
Definition numof (d : bool) (r : nat) (l : list reqspec) : N := fold_left (fun s q => if is_for d r q then s + q_num q else s) l 0.
Definition lastlen (d : bool) (r : nat) (l : list reqspec) : N := fold_left (fun s q => if is_for d r q then q_len q else s) l 0.

Lemma update_nth {A} (f : A -> A) v : forall n r, nth_error (update_at n f v) r = if Nat.eqb r n then option_map f (nth_error v r) else nth_error v r.
Proof.
  induction v as [|x v IH]; intros n r; [destruct n; cbn [update_at]; destruct (Nat.eqb r _); destruct r; reflexivity|].
  destruct n as [|n], r as [|r]; cbn [update_at nth_error Nat.eqb]; try reflexivity. apply IH.
Qed.
Lemma update_length {A} (f : A -> A) v : forall n, length (update_at n f v) = length v.
Proof. induction v as [|x v IH]; intros [|n]; cbn; auto. Qed.
Lemma grow_length counts r : length (grow_counts counts r) = Nat.max (length counts) (S r).
Proof. unfold grow_counts. rewrite app_length, map_length, seq_length. lia. Qed.
Lemma grow_nth counts r i : (i < length (grow_counts counts r))%nat -> nth_error (grow_counts counts r) i = if Nat.ltb i (length counts) then nth_error counts i else Some (RWC i 0 0 0 0).
Proof.
  intros H. rewrite grow_length in H. unfold grow_counts. destruct (Nat.ltb_spec i (length counts)) as [L|L].
  - apply nth_error_app1. exact L.
  - rewrite nth_error_app2 by exact L. rewrite (map_nth_error (fun i => RWC i 0 0 0 0) _ _ (d := i)); [reflexivity|].
    rewrite (nth_error_nth' _ 0%nat) by (rewrite seq_length; lia). rewrite seq_nth by lia. f_equal. lia.
Qed.

Definition merged (l : list reqspec) (r : nat) : rwcount := RWC r (numof true r l) (numof false r l) (lastlen true r l) (lastlen false r l).

Lemma numof_snoc d r l q : numof d r (l ++ [q]) = if is_for d r q then numof d r l + q_num q else numof d r l.
Proof. unfold numof. rewrite fold_left_app. reflexivity. Qed.
Lemma lastlen_snoc d r l q : lastlen d r (l ++ [q]) = if is_for d r q then q_len q else lastlen d r l.
Proof. unfold lastlen. rewrite fold_left_app. reflexivity. Qed.
Lemma numof_none d r l : (forall q, In q l -> q_res q <> r) -> numof d r l = 0.
Proof.
  induction l as [|q l IH] using rev_ind; intros H; [reflexivity|]. rewrite numof_snoc. unfold is_for. destruct (Nat.eqb_spec (q_res q) r) as [E|E].
  - exfalso. apply (H q); [apply in_or_app; right; left; reflexivity|exact E].
  - cbn [andb]. apply IH. intros x Hx. apply H. apply in_or_app. left. exact Hx.
Qed.
Lemma lastlen_none d r l : (forall q, In q l -> q_res q <> r) -> lastlen d r l = 0.
Proof.
  induction l as [|q l IH] using rev_ind; intros H; [reflexivity|]. rewrite lastlen_snoc. unfold is_for. destruct (Nat.eqb_spec (q_res q) r) as [E|E].
  - exfalso. apply (H q); [apply in_or_app; right; left; reflexivity|exact E].
  - cbn [andb]. apply IH. intros x Hx. apply H. apply in_or_app. left. exact Hx.
Qed.

Lemma merge_spec l : let counts := fold_left merge_step l [] in
  (forall i, (i < length counts)%nat -> nth_error counts i = Some (merged l i)) /\ (forall q, In q l -> (q_res q < length counts)%nat).
Proof.
  induction l as [|q l IH] using rev_ind; cbv zeta in *; [split; [intros i Hi; cbn in Hi; lia|intros q []]|].
  rewrite fold_left_app. cbn [fold_left]. set (counts := fold_left merge_step l []) in *. destruct IH as [A B].
  assert (LEN : length (merge_step counts q) = Nat.max (length counts) (S (q_res q))) by (unfold merge_step; rewrite update_length; apply grow_length).
  split.
  - intros i Hi. rewrite LEN in Hi. unfold merge_step. rewrite update_nth, grow_nth by (rewrite grow_length; exact Hi).
    assert (E : (if Nat.ltb i (length counts) then nth_error counts i else Some (RWC i 0 0 0 0)) = Some (merged l i)).
    { destruct (Nat.ltb_spec i (length counts)) as [L|L]; [apply A; exact L|]. unfold merged.
      assert (X : forall x, In x l -> q_res x <> i) by (intros x Hx Ex; specialize (B x Hx); lia). rewrite !numof_none, !lastlen_none by exact X. reflexivity. }
    rewrite E. unfold merged. rewrite !numof_snoc, !lastlen_snoc. unfold is_for. rewrite (Nat.eqb_sym (q_res q) i).
    destruct (Nat.eqb i (q_res q)) eqn:Q; cbn [andb]; [|reflexivity]. cbn [option_map rw_res rw_reads rw_writes rw_rlen rw_wlen]. destruct (q_read q); cbn [Bool.eqb]; reflexivity.
  - intros x Hx. rewrite LEN. apply in_app_or in Hx. destruct Hx as [Hx|[<-|[]]]; [specialize (B x Hx); lia|lia].
Qed.

Lemma nth_error_same {A} (l : list A) : forall l', (forall i, nth_error l i = nth_error l' i) -> l = l'.
Proof.
  induction l as [|a l IH]; intros [|b l'] H; [reflexivity|specialize (H 0%nat); discriminate|specialize (H 0%nat); discriminate|].
  pose proof (H 0%nat) as E. cbn in E. injection E as ->. f_equal. apply IH. intros i. apply (H (S i)).
Qed.

Definition nres (t : taskinfo) : nat := length (merge_rw_requests t).

Lemma merge_eq t : merge_rw_requests t = map (merged (ti_requests t)) (seq 0 (nres t)).
Proof.
  destruct (merge_spec (ti_requests t)) as [A _]. fold (merge_rw_requests t) in A. unfold nres.
  apply nth_error_same. intros i. destruct (Nat.lt_ge_cases i (length (merge_rw_requests t))) as [L|L].
  - rewrite (A i L). symmetry. rewrite (map_nth_error _ _ _ (d := i)); [reflexivity|]. rewrite (nth_error_nth' _ 0%nat) by (rewrite seq_length; exact L). rewrite seq_nth by exact L. reflexivity.
  - rewrite (proj2 (nth_error_None _ _) L). symmetry. apply nth_error_None. rewrite map_length, seq_length. exact L.
Qed.
Lemma merge_lt t q : In q (ti_requests t) -> (q_res q < nres t)%nat.
Proof. intros H. apply (proj2 (merge_spec (ti_requests t)) q H). Qed.

Lemma numof_mono d r l : forall s s', s <= s' -> fold_left (fun s q => if is_for d r q then s + q_num q else s) l s <= fold_left (fun s q => if is_for d r q then s + q_num q else s) l s'.
Proof. induction l as [|q l IH]; intros s s' H; [exact H|]. cbn. apply IH. destruct (is_for d r q); lia. Qed.
Lemma numof_ge d r l q : In q l -> is_for d r q = true -> q_num q <= numof d r l.
Proof.
  induction l as [|x l IH] using rev_ind; intros H E; [destruct H|]. rewrite numof_snoc. apply in_app_or in H. destruct H as [H|[<-|[]]].
  - specialize (IH H E). destruct (is_for d r x); lia.
  - rewrite E. lia.
Qed.
Lemma numof_pos d r l : numof d r l <> 0 -> exists q, In q l /\ is_for d r q = true.
Proof.
  induction l as [|x l IH] using rev_ind; intros H; [contradiction|]. rewrite numof_snoc in H. destruct (is_for d r x) eqn:E.
  - exists x. split; [apply in_or_app; right; left; reflexivity|exact E].
  - destruct (IH H) as [q [A B]]. exists q. split; [apply in_or_app; left; exact A|exact B].
Qed.
Lemma lastlen_eq d r l q : NoDup (map (fun q => (q_res q, q_read q)) l) -> In q l -> is_for d r q = true -> lastlen d r l = q_len q.
Proof.
  induction l as [|x l IH] using rev_ind; intros ND H E; [destruct H|]. rewrite lastlen_snoc. rewrite map_app in ND. cbn [map] in ND.
  apply in_app_or in H. destruct H as [H|[<-|[]]]; [|rewrite E; reflexivity].
  apply NoDup_remove in ND. rewrite app_nil_r in ND. destruct ND as [ND NI]. destruct (is_for d r x) eqn:Ex; [|apply IH; assumption].
  exfalso. apply NI. unfold is_for in E, Ex. apply andb_true_iff in E, Ex. destruct E as [E1 E2], Ex as [E3 E4]. apply Nat.eqb_eq in E1, E3. apply eqb_prop in E2, E4.
  apply in_map_iff. exists q. split; [congruence|exact H].
Qed.

(** * Folding the steps *)
Definition steps_as (step : interf * interf -> rwcount -> interf * interf) (g h : rwcount -> N) : Prop :=
  forall b s rw, i_len (fst (step (b, s) rw)) = i_len b + g rw /\ i_len (snd (step (b, s) rw)) = N.max (i_len s) (h rw).

Lemma steps_fold step g h : steps_as step g h -> forall l b s, i_len (fst (fold_left step l (b, s))) = i_len b + sumN (map g l) /\ i_len (snd (fold_left step l (b, s))) = N.max (i_len s) (maxN (map h l)).
Proof.
  intros H. induction l as [|rw l IH]; intros b s; cbn [fold_left map sumN maxN fold_right]; [split; cbn; lia|].
  destruct (H b s rw) as [H1 H2]. destruct (step (b, s) rw) as [b' s']. cbn [fst snd] in *. destruct (IH b' s') as [A B]. rewrite A, B, H1, H2. unfold sumN, maxN. split; lia.
Qed.

Lemma imin_len a b : i_len (imin a b) = N.min (i_len a) (i_len b).
Proof.
  unfold imin, ilt. destruct (N.ltb_spec (i_len b) (i_len a)); cbn [orb]; [lia|].
  destruct (N.eqb_spec (i_len b) (i_len a)); cbn [andb]; [destruct (i_count b <? i_count a)|]; lia.
Qed.

Definition step_bounds (step : taskinfo -> interf * interf -> rwcount -> interf * interf) (t : taskinfo) : bounds :=
  let '(bterm, span) := fold_left (step t) (merge_rw_requests t) (inter0, inter0) in BB bterm span inter0 inter0 inter0.

Section Result.
Variables (info : list taskinfo) (step : taskinfo -> interf * interf -> rwcount -> interf * interf) (g h : taskinfo -> rwcount -> N).
Hypothesis Hstep : forall t, steps_as (step t) (g t) (h t).

Definition rw_block (t : taskinfo) : N := sumN (map (fun r => g t (merged (ti_requests t) r)) (seq 0 (nres t))).
Definition rw_span (t : taskinfo) : N := maxN (map (fun r => h t (merged (ti_requests t) r)) (seq 0 (nres t))).
Definition rw_arrival (t : taskinfo) : N := maxN (map rw_span (local_lower info t)).

Lemma step_bounds_lens t : i_len (bb_block (step_bounds step t)) = rw_block t /\ i_len (bb_span (step_bounds step t)) = rw_span t.
Proof.
  unfold step_bounds. pose proof (steps_fold _ _ _ (Hstep t) (merge_rw_requests t) inter0 inter0) as [A B].
  destruct (fold_left (step t) (merge_rw_requests t) (inter0, inter0)) as [bt sp]. cbn [fst snd bb_block bb_span] in *. rewrite A, B, merge_eq, !map_map. cbn [i_len inter0]. unfold rw_block, rw_span. split; lia.
Qed.

Lemma rw_result i t : nth_error info i = Some t -> exists b, nth_error (charge_arrival_blocking (map (fun t => (t, step_bounds step t)) info)) i = Some b /\
  i_len (bb_span b) = rw_span t /\ i_len (bb_arrival b) = rw_arrival t /\ i_len (bb_block b) = rw_block t + rw_arrival t.
Proof.
  intros H. unfold charge_arrival_blocking. pose proof (map_nth_error (fun t => (t, step_bounds step t)) i info H) as E1. cbv beta in E1.
  rewrite (map_nth_error _ _ _ E1). eexists. split; [reflexivity|]. cbv beta iota zeta. cbn [bb_remote bb_span bb_arrival bb_block].
  destruct (step_bounds_lens t) as [A B].
  assert (E : i_len (max_local_request_span t (map (fun t => (t, step_bounds step t)) info)) = rw_arrival t).
  { rewrite max_span_len. unfold rw_arrival. f_equal. apply map_ext. intros u. apply step_bounds_lens. }
  split; [exact B|]. split; [exact E|]. unfold iadd; cbn [i_len]. rewrite A, E. reflexivity.
Qed.

Lemma lower_span t low : In low info -> ti_id low <> ti_id t -> ti_cluster low = ti_cluster t -> ti_prio t <= ti_prio low -> rw_span low <= rw_arrival t.
Proof.
  intros Hl NE Ec Pr. unfold rw_arrival. apply maxN_in. apply in_map. apply filter_In. split; [exact Hl|].
  destruct (Nat.eqb_spec (ti_id low) (ti_id t)); [contradiction|]. rewrite Ec, Nat.eqb_refl. cbn. apply N.leb_le. exact Pr.
Qed.
End Result.

(** * Sums over resources *)
Open Scope Z_scope.
Lemma sum_resources (s : nat -> Z) (f : nat -> N) n rs : NoDup rs -> (forall r, s r <= if Nat.ltb r n then Z.of_N (f r) else 0) -> fold_right Z.add 0 (map s rs) <= Z.of_N (sumN (map f (seq 0 n))).
Proof.
  intros ND H. 
  assert (G : forall l rs, NoDup rs -> NoDup l -> (forall r, s r <= if existsb (Nat.eqb r) l then Z.of_N (f r) else 0) -> fold_right Z.add 0 (map s rs) <= Z.of_N (sumN (map f l))).
  { clear. intros l rs ND NDl H. revert l NDl H. 
    assert (X : forall rs l, NoDup rs -> NoDup l -> fold_right Z.add 0 (map (fun r => if existsb (Nat.eqb r) l then Z.of_N (f r) else 0) rs) <= Z.of_N (sumN (map f l))).
    { clear. induction rs as [|r rs IH]; intros l ND NDl; [cbn; lia|]. inversion ND as [|a b NI ND']; subst. cbn [map fold_right].
      destruct (existsb (Nat.eqb r) l) eqn:E; [|specialize (IH l ND' NDl); lia]. apply existsb_exists in E. destruct E as [x [Hx E]]. apply Nat.eqb_eq in E. subst x.
      destruct (in_split _ _ Hx) as [l1 [l2 ->]]. pose proof (NoDup_remove _ _ _ NDl) as [ND1 NI1]. specialize (IH (l1 ++ l2) ND' ND1).
      assert (EQ : map (fun x => if existsb (Nat.eqb x) (l1 ++ r :: l2) then Z.of_N (f x) else 0) rs = map (fun x => if existsb (Nat.eqb x) (l1 ++ l2) then Z.of_N (f x) else 0) rs).
      { apply map_ext_in. intros x Hx'. rewrite !existsb_app. cbn [existsb]. destruct (Nat.eqb_spec x r) as [->|N]; [contradiction|]. reflexivity. }
      rewrite EQ. rewrite !map_app in *. cbn [map]. assert (SA : forall a b c, sumN (a ++ c :: b) = (c + sumN (a ++ b))%N) by (clear; induction a as [|x a IH]; intros b c; [reflexivity|]; cbn [app sumN fold_right] in *; specialize (IH b c); unfold sumN in IH; lia).
      rewrite SA. lia. }
    intros l NDl H. etransitivity; [|apply (X rs l ND NDl)]. clear - H. induction rs as [|r rs IH]; [cbn; lia|]. cbn [map fold_right]. specialize (H r). lia. }
  apply G; [exact ND|apply seq_NoDup|]. intros r. specialize (H r). replace (existsb (Nat.eqb r) (seq 0 n)) with (Nat.ltb r n); [exact H|].
  destruct (Nat.ltb_spec r n) as [L|L]; symmetry.
  - apply existsb_exists. exists r. split; [apply in_seq; lia|apply Nat.eqb_refl].
  - apply not_true_is_false. intros E. apply existsb_exists in E. destruct E as [x [Hx E]]. apply Nat.eqb_eq in E. subst. apply in_seq in Hx. lia.
Qed.

(** * The requests of a job *)
Section Job.
Variables (info : list taskinfo) (procs : N) (irq : option nat) (rel comp : nat -> nat -> Z) (res : nat) (tr : list rwreq).
Variable W : wf_rw info.
Variable RT : rw_trace info procs irq rel comp res tr.
Variable tsk : taskinfo.
Variable Htsk : In tsk info.
Variable k : nat.

Definition job_mine : list rwreq := filter (fun b => is_job (ti_id tsk) k (fst b)) tr.

Lemma job_mine_in b : In b job_mine -> In b tr /\ rtask b = ti_id tsk /\ cr_job (fst b) = k.
Proof. intros H. apply filter_In in H. destruct H as [H J]. unfold is_job in J. apply andb_true_iff in J. destruct J as [J1 J2]. apply Nat.eqb_eq in J1, J2. auto. Qed.

Lemma job_mine_apart : ForallOrdPairs (fun a b => apart (fst a) (fst b)) job_mine.
Proof.
  pose proof (fop_filter _ (fun b => is_job (ti_id tsk) k (fst b)) tr (rt_sequential _ _ _ _ _ _ _ RT)) as F. fold job_mine in F. revert F. apply fop_impl_in.
  intros a b Ha Hb F. apply F. apply job_mine_in in Ha, Hb. unfold rtask in *. lia.
Qed.

Lemma job_spin : spin_time (ti_id tsk) k (map fst tr) = zsum (map (fun b => cr_start (fst b) - cr_issue (fst b)) job_mine).
Proof.
  unfold spin_time, job_mine. clear. induction tr as [|a l IH]; [reflexivity|]. cbn [map fold_right filter]. destruct (is_job (ti_id tsk) k (fst a)); [cbn [map]; rewrite zsum_cons; lia|exact IH].
Qed.

Lemma own_spec b : In b tr -> rtask b = ti_id tsk -> exists q, In q (ti_requests tsk) /\ is_for (snd b) res q = true /\ rdur b <= Z.of_N (q_len q).
Proof.
  intros Hb T. destruct (rt_spec' info procs irq rel comp res tr RT b Hb) as [t [q [N1 [N2 [N3 [N4 N5]]]]]]. rewrite T, (wfr_id info tsk W Htsk) in N1. injection N1 as <-.
  exists q. split; [exact N2|]. split; [|exact N5]. unfold is_for. rewrite N3, N4, Nat.eqb_refl, eqb_reflx. reflexivity.
Qed.

Lemma job_mine_number d : (length (filter (fun b : rwreq => Bool.eqb (snd b) d) job_mine) <= N.to_nat (numof d res (ti_requests tsk)))%nat.
Proof.
  destruct (filter (fun b : rwreq => Bool.eqb (snd b) d) job_mine) as [|a l] eqn:E; [cbn; lia|]. rewrite <- E.
  assert (I : In a (filter (fun b : rwreq => Bool.eqb (snd b) d) job_mine)) by (rewrite E; left; reflexivity). apply filter_In in I. destruct I as [I D]. apply eqb_prop in D. apply job_mine_in in I.
  destruct (own_spec a (proj1 I) (proj1 (proj2 I))) as [q [Q1 [Q2 _]]]. rewrite D in Q2. pose proof (numof_ge d res _ q Q1 Q2) as NG.
  unfold is_for in Q2. apply andb_true_iff in Q2. destruct Q2 as [Q2 Q3]. apply Nat.eqb_eq in Q2. apply eqb_prop in Q3.
  pose proof (rt_number _ _ _ _ _ _ _ RT (ti_id tsk) k tsk q (wfr_id info tsk W Htsk) Q1 Q2) as RN. rewrite Q3 in RN. unfold job_mine. rewrite filter_filter. lia.
Qed.
Lemma job_mine_writes : (length (filter (fun b : rwreq => negb (snd b)) job_mine) <= N.to_nat (numof false res (ti_requests tsk)))%nat.
Proof. etransitivity; [|apply (job_mine_number false)]. apply filter_sub. intros a _ X. destruct (snd a); [discriminate|reflexivity]. Qed.
Lemma job_mine_reads : (length (filter (fun b : rwreq => snd b) job_mine) <= N.to_nat (numof true res (ti_requests tsk)))%nat.
Proof. etransitivity; [|apply (job_mine_number true)]. apply filter_sub. intros a _ X. rewrite X. reflexivity. Qed.
Lemma job_mine_length : (length job_mine <= N.to_nat (numof true res (ti_requests tsk) + numof false res (ti_requests tsk)))%nat.
Proof. rewrite type_split. pose proof job_mine_writes. pose proof job_mine_reads. lia. Qed.

Lemma job_mine_none : (forall q, In q (ti_requests tsk) -> q_res q <> res) -> job_mine = [].
Proof.
  intros H. destruct job_mine as [|a l] eqn:E; [reflexivity|]. exfalso. assert (I : In a job_mine) by (rewrite E; left; reflexivity). apply job_mine_in in I.
  destruct (own_spec a (proj1 I) (proj1 (proj2 I))) as [q [Q1 [Q2 _]]]. unfold is_for in Q2. apply andb_true_iff in Q2. destruct Q2 as [Q2 _]. apply Nat.eqb_eq in Q2. apply (H q Q1 Q2).
Qed.

Lemma spin_zero_out r : (nres tsk <= res)%nat -> r = res -> spin_time (ti_id tsk) k (map fst tr) = 0.
Proof. intros L _. rewrite job_spin, job_mine_none; [reflexivity|]. intros q Hq E. pose proof (merge_lt tsk q Hq). lia. Qed.

(** a request that exists is counted *)
Lemma own_counted b : In b tr -> rtask b = ti_id tsk -> numof (snd b) res (ti_requests tsk) <> 0%N /\ rdur b <= Z.of_N (lastlen (snd b) res (ti_requests tsk)) /\ (res < nres tsk)%nat.
Proof.
  intros Hb T. destruct (own_spec b Hb T) as [q [Q1 [Q2 Q3]]]. pose proof (numof_ge _ _ _ q Q1 Q2) as NG.
  split; [|split].
  - pose proof Q2 as Q2'. unfold is_for in Q2'. apply andb_true_iff in Q2'. destruct Q2' as [E1 E2]. apply Nat.eqb_eq in E1. apply eqb_prop in E2.
    pose proof (rt_number _ _ _ _ _ _ _ RT (ti_id tsk) (cr_job (fst b)) tsk q (wfr_id info tsk W Htsk) Q1 E1) as RN.
    assert (I : In b (filter (fun c : rwreq => is_job (ti_id tsk) (cr_job (fst b)) (fst c) && Bool.eqb (snd c) (q_read q)) tr)).
    { apply filter_In. split; [exact Hb|]. unfold is_job. unfold rtask in T. rewrite T, !Nat.eqb_refl, E2, eqb_reflx. reflexivity. }
    destruct (filter _ tr); [destruct I|]. cbn [length] in RN. lia.
  - rewrite (lastlen_eq _ _ _ q); [exact Q3| |exact Q1|exact Q2]. apply W. exact Htsk.
  - unfold is_for in Q2. apply andb_true_iff in Q2. destruct Q2 as [E1 _]. apply Nat.eqb_eq in E1. rewrite <- E1. apply merge_lt. exact Q1.
Qed.
End Job.

(** * Phase-fair results *)
Definition pf_g (procs np : N) (irq : option nat) ws rs (t : taskinfo) (rw : rwcount) : N :=
  if (rw_reads rw =? 0)%N && (rw_writes rw =? 0)%N then 0%N
  else (i_len (fst (pf_blocking procs np irq ws rs t (rw_res rw) (rw_writes rw) (rw_reads rw))) + i_len (snd (pf_blocking procs np irq ws rs t (rw_res rw) (rw_writes rw) (rw_reads rw))))%N.
Definition pf_one (procs np : N) (irq : option nat) ws rs (t : taskinfo) (res : nat) (nw nr : N) : N :=
  (i_len (fst (pf_blocking procs np irq ws rs t res nw nr)) + i_len (snd (pf_blocking procs np irq ws rs t res nw nr)))%N.
Definition pf_h (procs np : N) (irq : option nat) ws rs (t : taskinfo) (rw : rwcount) : N :=
  N.max (if (rw_writes rw =? 0)%N then 0%N else (pf_one procs np irq ws rs t (rw_res rw) 1 0 + rw_wlen rw)%N)
        (if (rw_reads rw =? 0)%N then 0%N else (pf_one procs np irq ws rs t (rw_res rw) 0 1 + rw_rlen rw)%N).

Lemma pf_steps procs np irq ws rs t : steps_as (pf_step procs np irq ws rs t) (pf_g procs np irq ws rs t) (pf_h procs np irq ws rs t).
Proof.
  intros b s rw. unfold pf_step, pf_g, pf_h, pf_one.
  destruct (N.eqb_spec (rw_reads rw) 0) as [R0|R0], (N.eqb_spec (rw_writes rw) 0) as [W0|W0]; cbn [andb negb orb].
  - cbn [fst snd]. split; lia.
  - rewrite R0. destruct (N.eqb_spec (rw_writes rw) 1) as [W1|W1]; cbn [negb orb]; [rewrite W1|].
    + destruct (pf_blocking procs np irq ws rs t (rw_res rw) 1 0) as [w r] eqn:E. cbn [fst snd]. rewrite !imax_len. unfold iadd; cbn [i_len inter0]. split; lia.
    + destruct (pf_blocking procs np irq ws rs t (rw_res rw) (rw_writes rw) 0) as [w r] eqn:E. destruct (pf_blocking procs np irq ws rs t (rw_res rw) 1 0) as [w1 r1] eqn:E1. cbn [fst snd]. rewrite !imax_len. unfold iadd; cbn [i_len inter0]. split; lia.
  - rewrite W0. destruct (N.eqb_spec (rw_reads rw) 1) as [R1|R1]; cbn [negb orb]; [rewrite R1|].
    + destruct (pf_blocking procs np irq ws rs t (rw_res rw) 0 1) as [w r] eqn:E. cbn [fst snd]. rewrite !imax_len. unfold iadd; cbn [i_len inter0]. split; lia.
    + destruct (pf_blocking procs np irq ws rs t (rw_res rw) 0 (rw_reads rw)) as [w r] eqn:E. destruct (pf_blocking procs np irq ws rs t (rw_res rw) 0 1) as [w1 r1] eqn:E1. cbn [fst snd]. rewrite !imax_len. unfold iadd; cbn [i_len inter0]. split; lia.
  - rewrite !orb_true_r. destruct (pf_blocking procs np irq ws rs t (rw_res rw) (rw_writes rw) (rw_reads rw)) as [w r] eqn:E. destruct (pf_blocking procs np irq ws rs t (rw_res rw) 1 0) as [w1 r1] eqn:E1.
    destruct (pf_blocking procs np irq ws rs t (rw_res rw) 0 1) as [w2 r2] eqn:E2. cbn [fst snd]. rewrite !imax_len. unfold iadd; cbn [i_len inter0]. split; lia.
Qed.

Notation pf_total info procs := (procs * N.of_nat (num_clusters info))%N.
Definition pfstep info procs irq := pf_step procs (pf_total info procs) irq (cluster_writes info) (all_reads_of info).
Definition pfg info procs irq := pf_g procs (pf_total info procs) irq (cluster_writes info) (all_reads_of info).
Definition pfh info procs irq := pf_h procs (pf_total info procs) irq (cluster_writes info) (all_reads_of info).

Lemma num_clusters_eq info : length (split_by_cluster info 0) = num_clusters info.
Proof. reflexivity. Qed.

Lemma pf_bounds_eq info procs irq : phase_fair_rw_bounds info procs irq = charge_arrival_blocking (map (fun t => (t, step_bounds (pfstep info procs irq) t)) info).
Proof.
  unfold phase_fair_rw_bounds, clustered_rw_omlp_bounds. cbv zeta. rewrite num_clusters_eq. f_equal. apply map_ext. intros t. unfold step_bounds, pfstep. destruct (fold_left _ (merge_rw_requests t) (inter0, inter0)) as [bt sp]. reflexivity.
Qed.

Lemma pf_result info procs irq i t : nth_error info i = Some t -> exists b, nth_error (phase_fair_rw_bounds info procs irq) i = Some b /\
  i_len (bb_span b) = rw_span (pfh info procs irq) t /\ i_len (bb_arrival b) = rw_arrival info (pfh info procs irq) t /\ i_len (bb_block b) = (rw_block (pfg info procs irq) t + rw_arrival info (pfh info procs irq) t)%N.
Proof. intros H. rewrite pf_bounds_eq. apply rw_result; [|exact H]. intros u. apply pf_steps. Qed.

Section PFRes.
Variables (info : list taskinfo) (procs : N) (irq : option nat) (rel comp : nat -> nat -> Z).
Variable W : wf_rw info.
Variable SJ : forall t, In t info -> sporadic_jobs (ti_period t) (ti_response t) (rel (ti_id t)) (comp (ti_id t)).
Variable tsk : taskinfo.
Variable Htsk : In tsk info.

Lemma pf_spin res tr k : phase_fair_execution info procs irq rel comp res tr -> spin_time (ti_id tsk) k (map fst tr) <= if Nat.ltb res (nres tsk) then Z.of_N (pfg info procs irq tsk (merged (ti_requests tsk) res)) else 0.
Proof.
  intros PF. pose proof (pf_trace _ _ _ _ _ _ _ PF) as RT. destruct (Nat.ltb_spec res (nres tsk)) as [L|L].
  - rewrite (job_spin tr tsk k). unfold pfg, pf_g, merged. cbn [rw_reads rw_writes rw_res].
    pose proof (job_mine_writes info procs irq rel comp res tr W RT tsk Htsk k) as LW. pose proof (job_mine_reads info procs irq rel comp res tr W RT tsk Htsk k) as LR.
    destruct (N.eqb_spec (numof true res (ti_requests tsk)) 0) as [R0|R0], (N.eqb_spec (numof false res (ti_requests tsk)) 0) as [W0|W0]; cbn [andb].
    1:{ pose proof (job_mine_length info procs irq rel comp res tr W RT tsk Htsk k) as LL. rewrite R0, W0 in LL. destruct (job_mine tr tsk k); [cbn; lia|cbn in LL; lia]. }
    all: pose proof (pf_bound info procs irq rel comp res tr W SJ PF tsk k Htsk (job_mine tr tsk k) (job_mine_in tr tsk k) (job_mine_apart info procs irq rel comp res tr RT tsk k) _ _ LW LR) as B;
      destruct (pf_blocking _ _ _ _ _ _ _ _ _) as [w r]; cbn [fst snd]; exact B.
  - rewrite (spin_zero_out info procs irq rel comp res tr W RT tsk Htsk k res L eq_refl). lia.
Qed.

Lemma pf_total_spin tr k rs : (forall r, phase_fair_execution info procs irq rel comp r (tr r)) -> NoDup rs -> total_spin (ti_id tsk) k (fun r => map fst (tr r)) rs <= Z.of_N (rw_block (pfg info procs irq) tsk).
Proof. intros H ND. unfold total_spin, rw_block. apply sum_resources; [exact ND|]. intros r. apply pf_spin. apply H. Qed.

Lemma pf_span res tr c d : phase_fair_execution info procs irq rel comp res tr -> In (c, d) tr -> cr_task c = ti_id tsk -> cr_end c - cr_issue c <= Z.of_N (rw_span (pfh info procs irq) tsk).
Proof.
  intros PF Hc T. pose proof (pf_trace _ _ _ _ _ _ _ PF) as RT. destruct (own_counted info procs irq rel comp res tr W RT tsk Htsk (c, d) Hc T) as [C1 [C2 C3]]. cbn [snd] in C1, C2. unfold rdur in C2; cbn [fst] in C2.
  assert (LE : (pfh info procs irq tsk (merged (ti_requests tsk) res) <= rw_span (pfh info procs irq) tsk)%N).
  { unfold rw_span. apply maxN_in. apply (in_map (fun r => pfh info procs irq tsk (merged (ti_requests tsk) r))). apply in_seq. lia. }
  assert (HM : forall b, In b [(c, d)] -> In b tr /\ rtask b = ti_id tsk /\ cr_job (fst b) = cr_job c) by (intros b [<-|[]]; repeat split; auto).
  assert (HA : ForallOrdPairs (fun a b : rwreq => apart (fst a) (fst b)) [(c, d)]) by (constructor; constructor).
  set (SPAN := rw_span (pfh info procs irq) tsk) in *. clearbody SPAN.
  unfold pfh, pf_h, pf_one, merged in LE. cbn [rw_reads rw_writes rw_res rw_rlen rw_wlen] in LE. destruct d.
  - pose proof (pf_bound info procs irq rel comp res tr W SJ PF tsk (cr_job c) Htsk _ HM HA 0 1) as B. cbn [filter snd negb length] in B. specialize (B ltac:(lia) ltac:(lia)). cbn [map] in B. rewrite zsum_cons in B. change (zsum []) with 0 in B. cbn [fst] in B.
    destruct (pf_blocking procs (pf_total info procs) irq (cluster_writes info) (all_reads_of info) tsk res 0 1) as [w r] eqn:E. cbn [fst snd] in LE.
    destruct (N.eqb_spec (numof true res (ti_requests tsk)) 0) as [Z|Z]; [contradiction|]. lia.
  - pose proof (pf_bound info procs irq rel comp res tr W SJ PF tsk (cr_job c) Htsk _ HM HA 1 0) as B. cbn [filter snd negb length] in B. specialize (B ltac:(lia) ltac:(lia)). cbn [map] in B. rewrite zsum_cons in B. change (zsum []) with 0 in B. cbn [fst] in B.
    destruct (pf_blocking procs (pf_total info procs) irq (cluster_writes info) (all_reads_of info) tsk res 1 0) as [w r] eqn:E. cbn [fst snd] in LE.
    destruct (N.eqb_spec (numof false res (ti_requests tsk)) 0) as [Z|Z]; [contradiction|]. lia.
Qed.
End PFRes.

(** * Task-fair results *)
Definition tf_sum procs irq ws rs (t : taskinfo) (res : nat) (issued issued' nw nr : N) : N :=
  (i_len (np_fifo_per_resource t ws procs res issued irq) + i_len (tf_reader_all t rs nw (i_count (np_fifo_per_resource t ws procs res issued' irq)) nr res procs))%N.
Definition tf_g procs irq mtx ws rs (t : taskinfo) (rw : rwcount) : N :=
  if (rw_reads rw =? 0)%N && (rw_writes rw =? 0)%N then 0%N
  else N.min (tf_sum procs irq ws rs t (rw_res rw) (rw_reads rw + rw_writes rw) (rw_reads rw + rw_writes rw) (rw_writes rw) (rw_reads rw))
             (i_len (np_fifo_per_resource t mtx procs (rw_res rw) (rw_reads rw + rw_writes rw) irq)).
Definition tf_h procs irq mtx ws rs (t : taskinfo) (rw : rwcount) : N :=
  if (rw_reads rw =? 0)%N && (rw_writes rw =? 0)%N then 0%N
  else N.min (i_len (np_fifo_per_resource t ws procs (rw_res rw) 1 irq) +
      N.max (if (rw_writes rw =? 0)%N then 0 else i_len (tf_reader_all t rs 1 (i_count (np_fifo_per_resource t ws procs (rw_res rw) (rw_reads rw + rw_writes rw) irq)) 0 (rw_res rw) procs) + rw_wlen rw)%N
            (if (rw_reads rw =? 0)%N then 0 else i_len (tf_reader_all t rs 0 (i_count (np_fifo_per_resource t ws procs (rw_res rw) (rw_reads rw + rw_writes rw) irq)) 1 (rw_res rw) procs) + rw_rlen rw)%N)%N
    (i_len (np_fifo_per_resource t mtx procs (rw_res rw) 1 irq) + N.max (rw_wlen rw) (rw_rlen rw)).

Lemma tf_steps procs irq mtx ws rs t : steps_as (tf_step procs irq mtx ws rs t) (tf_g procs irq mtx ws rs t) (tf_h procs irq mtx ws rs t).
Proof.
  intros b s rw. unfold tf_step, tf_g, tf_h, tf_sum. destruct ((rw_reads rw =? 0)%N && (rw_writes rw =? 0)%N); [cbn [fst snd]; split; lia|].
  cbn [fst snd]. rewrite imax_len. unfold iadd at 1. cbn [i_len]. rewrite !imin_len. unfold iadd; cbn [i_len]. rewrite imax_len. split; [lia|].
  assert (E : i_len (if (rw_reads rw + rw_writes rw =? 1)%N then np_fifo_per_resource t mtx procs (rw_res rw) (rw_reads rw + rw_writes rw) irq else np_fifo_per_resource t mtx procs (rw_res rw) 1 irq) = i_len (np_fifo_per_resource t mtx procs (rw_res rw) 1 irq)).
  { destruct (N.eqb_spec (rw_reads rw + rw_writes rw) 1) as [->|E]; reflexivity. }
  rewrite E. destruct (rw_reads rw =? 0)%N, (rw_writes rw =? 0)%N; cbn [negb i_len inter0]; reflexivity.
Qed.

Definition tfstep info mtx procs irq := tf_step procs irq (cluster_contention mtx) (cluster_writes info) (all_reads_of info).
Definition tfg info mtx procs irq := tf_g procs irq (cluster_contention mtx) (cluster_writes info) (all_reads_of info).
Definition tfh info mtx procs irq := tf_h procs irq (cluster_contention mtx) (cluster_writes info) (all_reads_of info).

Lemma tf_bounds_eq info mtx procs irq : task_fair_rw_bounds info mtx procs irq = charge_arrival_blocking (map (fun t => (t, step_bounds (tfstep info mtx procs irq) t)) info).
Proof.
  unfold task_fair_rw_bounds. cbv zeta. f_equal. apply map_ext. intros t. unfold step_bounds, tfstep. destruct (fold_left _ (merge_rw_requests t) (inter0, inter0)) as [bt sp]. reflexivity.
Qed.

Lemma tf_result info mtx procs irq i t : nth_error info i = Some t -> exists b, nth_error (task_fair_rw_bounds info mtx procs irq) i = Some b /\
  i_len (bb_span b) = rw_span (tfh info mtx procs irq) t /\ i_len (bb_arrival b) = rw_arrival info (tfh info mtx procs irq) t /\ i_len (bb_block b) = (rw_block (tfg info mtx procs irq) t + rw_arrival info (tfh info mtx procs irq) t)%N.
Proof. intros H. rewrite tf_bounds_eq. apply rw_result; [|exact H]. intros u. apply tf_steps. Qed.

Section TFRes.
Variables (info mtx : list taskinfo) (procs : N) (irq : option nat) (rel comp : nat -> nat -> Z).
Variable W : wf_rw info.
Variable SJ : forall t, In t info -> sporadic_jobs (ti_period t) (ti_response t) (rel (ti_id t)) (comp (ti_id t)).
Variable Hmtx : Forall2 mutex_cover info mtx.
Variable Wm : wf_info mtx.
Variable tsk : taskinfo.
Variable Htsk : In tsk info.

Lemma tf_spin res tr k : task_fair_execution info procs irq rel comp res tr -> spin_time (ti_id tsk) k (map fst tr) <= if Nat.ltb res (nres tsk) then Z.of_N (tfg info mtx procs irq tsk (merged (ti_requests tsk) res)) else 0.
Proof.
  intros TF. pose proof (tf_trace _ _ _ _ _ _ _ TF) as RT. destruct (Nat.ltb_spec res (nres tsk)) as [L|L].
  - rewrite (job_spin tr tsk k). unfold tfg, tf_g, tf_sum, merged. cbn [rw_reads rw_writes rw_res].
    pose proof (job_mine_writes info procs irq rel comp res tr W RT tsk Htsk k) as LW. pose proof (job_mine_reads info procs irq rel comp res tr W RT tsk Htsk k) as LR.
    pose proof (job_mine_length info procs irq rel comp res tr W RT tsk Htsk k) as LL.
    destruct ((numof true res (ti_requests tsk) =? 0)%N && (numof false res (ti_requests tsk) =? 0)%N) eqn:E0.
    + apply andb_true_iff in E0. destruct E0 as [R0 W0]. apply N.eqb_eq in R0, W0. rewrite R0, W0 in LL. destruct (job_mine tr tsk k); [cbn; lia|cbn in LL; lia].
    + rewrite N2Z.inj_min. apply Z.min_glb.
      * apply (tf_bound info procs irq rel comp res tr W SJ TF tsk k Htsk (job_mine tr tsk k) (job_mine_in tr tsk k) (job_mine_apart info procs irq rel comp res tr RT tsk k)); assumption.
      * apply (tf_mutex_bound info procs irq rel comp res tr W SJ TF tsk k Htsk (job_mine tr tsk k) (job_mine_in tr tsk k) (job_mine_apart info procs irq rel comp res tr RT tsk k) mtx Hmtx Wm); assumption.
  - rewrite (spin_zero_out info procs irq rel comp res tr W RT tsk Htsk k res L eq_refl). lia.
Qed.

Lemma tf_total_spin tr k rs : (forall r, task_fair_execution info procs irq rel comp r (tr r)) -> NoDup rs -> total_spin (ti_id tsk) k (fun r => map fst (tr r)) rs <= Z.of_N (rw_block (tfg info mtx procs irq) tsk).
Proof. intros H ND. unfold total_spin, rw_block. apply sum_resources; [exact ND|]. intros r. apply tf_spin. apply H. Qed.

Lemma tf_span res tr c d : task_fair_execution info procs irq rel comp res tr -> In (c, d) tr -> cr_task c = ti_id tsk -> cr_end c - cr_issue c <= Z.of_N (rw_span (tfh info mtx procs irq) tsk).
Proof.
  intros TF Hc T. pose proof (tf_trace _ _ _ _ _ _ _ TF) as RT. destruct (own_counted info procs irq rel comp res tr W RT tsk Htsk (c, d) Hc T) as [C1 [C2 C3]]. cbn [snd] in C1, C2. unfold rdur in C2; cbn [fst] in C2.
  assert (LE : (tfh info mtx procs irq tsk (merged (ti_requests tsk) res) <= rw_span (tfh info mtx procs irq) tsk)%N).
  { unfold rw_span. apply maxN_in. apply (in_map (fun r => tfh info mtx procs irq tsk (merged (ti_requests tsk) r))). apply in_seq. lia. }
  assert (HM : forall b, In b [(c, d)] -> In b tr /\ rtask b = ti_id tsk /\ cr_job (fst b) = cr_job c) by (intros b [<-|[]]; repeat split; auto).
  assert (HA : ForallOrdPairs (fun a b : rwreq => apart (fst a) (fst b)) [(c, d)]) by (constructor; constructor).
  set (SPAN := rw_span (tfh info mtx procs irq) tsk) in *. clearbody SPAN.
  unfold tfh, tf_h, merged in LE. cbn [rw_reads rw_writes rw_res rw_rlen rw_wlen] in LE. set (nr := numof true res (ti_requests tsk)) in *. set (nw := numof false res (ti_requests tsk)) in *.
  assert (POS : (1 <= nr + nw)%N) by (destruct d; subst nr nw; lia).
  pose proof (tf_mutex_bound info procs irq rel comp res tr W SJ TF tsk (cr_job c) Htsk _ HM HA mtx Hmtx Wm 1 ltac:(cbn; lia)) as MB. cbn [map] in MB. rewrite zsum_cons in MB. change (zsum []) with 0 in MB. cbn [fst] in MB.
  destruct ((nr =? 0)%N && (nw =? 0)%N) eqn:E0; [apply andb_true_iff in E0; destruct E0 as [R0 W0]; apply N.eqb_eq in R0, W0; lia|].
  assert (LIM : forall x y : N, (N.min x y <= SPAN)%N -> cr_end c - cr_issue c <= Z.of_N x -> cr_end c - cr_issue c <= Z.of_N y -> cr_end c - cr_issue c <= Z.of_N SPAN) by (intros; lia).
  apply (LIM _ _ LE); [|destruct d; lia]. destruct d.
  - pose proof (tf_bound info procs irq rel comp res tr W SJ TF tsk (cr_job c) Htsk _ HM HA 0 1 1 (nr + nw)) as B. cbn [filter snd negb length] in B. specialize (B ltac:(lia) ltac:(lia) ltac:(lia) ltac:(lia)). cbn [map] in B. rewrite zsum_cons in B. change (zsum []) with 0 in B. cbn [fst] in B.
    destruct (N.eqb_spec nr 0) as [Z|Z]; [contradiction|]. lia.
  - pose proof (tf_bound info procs irq rel comp res tr W SJ TF tsk (cr_job c) Htsk _ HM HA 1 0 1 (nr + nw)) as B. cbn [filter snd negb length] in B. specialize (B ltac:(lia) ltac:(lia) ltac:(lia) ltac:(lia)). cbn [map] in B. rewrite zsum_cons in B. change (zsum []) with 0 in B. cbn [fst] in B.
    destruct (N.eqb_spec nw 0) as [Z|Z]; [contradiction|]. lia.
Qed.
End TFRes.
