(** Lemmas about reader-writer locks: contention sets, requests that delay a job. *)
From Coq Require Import NArith ZArith List Bool Sorted Permutation Lia Arith.
From Verif Require Import ModelLocking ModelResources ModelRW SpecLocking SpecQueue SpecRW ProofLocking ProofSpin ProofQueue.
Import ListNotations.
Open Scope N_scope.

(** * Contention sets of one type *)
Definition typed (d : bool) (l : list rbound) : list rbound := filter (fun r => Bool.eqb (q_read (rb_req r)) d) l.

Lemma reads_typed l : reads_of l = typed true l.
Proof. unfold reads_of, typed. apply filter_ext. intros r. destruct (q_read (rb_req r)); reflexivity. Qed.
Lemma writes_typed l : writes_of l = typed false l.
Proof. unfold writes_of, typed. apply filter_ext. intros r. destruct (q_read (rb_req r)); reflexivity. Qed.

Lemma in_typed d l r : In r (typed d l) <-> In r l /\ q_read (rb_req r) = d.
Proof. unfold typed. rewrite filter_In, Bool.eqb_true_iff. tauto. Qed.

Lemma nodup_typed_filter l q d : NoDup (map (fun x => (q_res x, q_read x)) l) -> (length (filter (fun x => Nat.eqb (q_res x) q && Bool.eqb (q_read x) d) l) <= 1)%nat.
Proof.
  induction l as [|x r IH]; intros H; [cbn; lia|]. cbn [map] in H. inversion H as [|a b NI ND]; subst. specialize (IH ND). cbn [filter].
  destruct (Nat.eqb_spec (q_res x) q) as [E|E]; [|exact IH]. destruct (Bool.eqb (q_read x) d) eqn:D; [|exact IH]. apply Bool.eqb_prop in D. cbn [andb length].
  replace (filter (fun x0 => Nat.eqb (q_res x0) q && Bool.eqb (q_read x0) d) r) with (@nil reqspec); [cbn; lia|]. symmetry.
  destruct (filter _ r) as [|y z] eqn:F; [reflexivity|]. exfalso. apply NI. assert (Y : In y (filter (fun x0 => Nat.eqb (q_res x0) q && Bool.eqb (q_read x0) d) r)) by (rewrite F; left; reflexivity).
  apply filter_In in Y. destruct Y as [Y1 Y2]. apply andb_true_iff in Y2. destruct Y2 as [Y2 Y3]. apply Nat.eqb_eq in Y2. apply Bool.eqb_prop in Y3.
  apply in_map_iff. exists y. split; [congruence|exact Y1].
Qed.

Lemma typed_keys_nodup tasks q d : NoDup (map ti_id tasks) -> (forall t, In t tasks -> NoDup (map (fun x => (q_res x, q_read x)) (ti_requests t))) ->
  NoDup (map tkey (typed d (for_resource q (all_requests tasks)))).
Proof.
  induction tasks as [|t r IH]; intros H1 H2; cbn; [constructor|]. inversion H1 as [|a b NI ND]; subst.
  unfold typed, for_resource, all_requests in *. cbn [map concat]. rewrite !filter_app, map_app.
  specialize (IH ND (fun t Ht => H2 t (or_intror Ht))).
  rewrite !filter_map, map_map, filter_filter. cbn [rb_res rb_req].
  pose proof (nodup_typed_filter (ti_requests t) q d (H2 t (or_introl eq_refl))) as L.
  change (fun a : reqspec => Nat.eqb (rb_res (RB t a)) q && Bool.eqb (q_read a) d) with (fun a : reqspec => Nat.eqb (q_res a) q && Bool.eqb (q_read a) d).
  destruct (filter (fun a => Nat.eqb (q_res a) q && Bool.eqb (q_read a) d) (ti_requests t)) as [|x [|y z]]; cbn [map app length] in *; [exact IH| |lia].
  constructor; [|exact IH]. intros X. apply in_map_iff in X. destruct X as [rb [E X]]. apply filter_In in X. destruct X as [X _]. apply filter_In in X. destruct X as [X _].
  apply (in_all_requests r) in X. destruct X as [t' [q' [Ht' [_ ->]]]]. unfold tkey in E; cbn in E. apply NI. rewrite <- E. apply in_map. exact Ht'.
Qed.

Lemma filter_perm {A} (p : A -> bool) l l' : Permutation l l' -> Permutation (filter p l) (filter p l').
Proof.
  induction 1 as [|x l l' _ IH|x y l|l l' l'' _ IH1 _ IH2]; cbn; [constructor| | |eapply Permutation_trans; eassumption].
  - destruct (p x); [constructor|]; exact IH.
  - destruct (p x), (p y); try apply Permutation_refl. constructor.
Qed.

Lemma filter_sorted {A} (R : A -> A -> Prop) (p : A -> bool) l : StronglySorted R l -> StronglySorted R (filter p l).
Proof.
  induction 1 as [|x l H IH F]; cbn; [constructor|]. destruct (p x); [|exact IH]. constructor; [exact IH|]. rewrite Forall_forall in *. intros y Hy. apply filter_In in Hy. apply F. apply Hy.
Qed.

Definition wcont (info : list taskinfo) (c q : nat) : list rbound := typed false (contention info c q).
Definition rcont (info : list taskinfo) (q : nat) : list rbound := sort_by_request_length (typed true (for_resource q (all_requests info))).

Lemma cluster_writes_nth info c q : nth q (nth c (cluster_writes info) []) [] = wcont info c q.
Proof.
  unfold cluster_writes, wcont. rewrite <- writes_typed, <- cluster_contention_nth.
  change (@nil (list rbound)) with (map writes_of (@nil (list rbound))) at 1. rewrite map_nth. change (@nil rbound) with (writes_of []) at 1. rewrite map_nth. reflexivity.
Qed.

Lemma cluster_writes_length info : length (cluster_writes info) = num_clusters info.
Proof. unfold cluster_writes. rewrite map_length. apply cluster_contention_length. Qed.

Lemma all_reads_nth info q : nth q (all_reads_of info) [] = rcont info q.
Proof.
  unfold all_reads_of, rcont, sort_resources. change (@nil rbound) with (sort_by_request_length []) at 1. rewrite map_nth. f_equal.
  change (@nil rbound) with (reads_of []) at 1. rewrite map_nth, split_by_resource_nth. apply reads_typed.
Qed.

Lemma in_wcont info c q r : In r (wcont info c q) <-> In (rb_task r) info /\ ti_cluster (rb_task r) = c /\ In (rb_req r) (ti_requests (rb_task r)) /\ q_res (rb_req r) = q /\ q_read (rb_req r) = false.
Proof. unfold wcont. rewrite in_typed, in_contention. tauto. Qed.

Lemma in_rcont info q r : In r (rcont info q) <-> In (rb_task r) info /\ In (rb_req r) (ti_requests (rb_task r)) /\ q_res (rb_req r) = q /\ q_read (rb_req r) = true.
Proof.
  unfold rcont. split.
  - intros H. apply (Permutation_in _ (Permutation_sym (sort_len_perm rb_len _))) in H. apply in_typed in H. destruct H as [H H4]. apply filter_In in H. destruct H as [H1 H2].
    apply in_all_requests in H1. destruct H1 as [t [x [Ht [Hx ->]]]]. apply Nat.eqb_eq in H2. cbn in *. auto.
  - intros [H1 [H3 [H4 H5]]]. apply (Permutation_in _ (sort_len_perm rb_len _)). apply in_typed. split; [|exact H5]. apply filter_In. split; [|apply Nat.eqb_eq; exact H4].
    apply in_all_requests. exists (rb_task r), (rb_req r). split; [exact H1|]. split; [exact H3|destruct r; reflexivity].
Qed.

Lemma wcont_sorted info c q : sorted_by_length (wcont info c q).
Proof. apply filter_sorted, contention_sorted. Qed.
Lemma rcont_sorted info q : sorted_by_length (rcont info q).
Proof. apply sort_len_sorted. Qed.

Lemma wcont_nodup info c q : wf_rw info -> NoDup (map tkey (wcont info c q)).
Proof.
  intros [W1 W2]. unfold wcont, contention, typed. eapply Permutation_NoDup; [apply Permutation_map; apply filter_perm; apply sort_len_perm|].
  apply typed_keys_nodup.
  - apply nodup_filter_map. rewrite W1. apply seq_NoDup.
  - intros t Ht. apply filter_In in Ht. apply W2. apply Ht.
Qed.
Lemma rcont_nodup info q : wf_rw info -> NoDup (map tkey (rcont info q)).
Proof.
  intros [W1 W2]. unfold rcont. eapply Permutation_NoDup; [apply Permutation_map; apply sort_len_perm|].
  apply typed_keys_nodup; [rewrite W1; apply seq_NoDup|]. intros t Ht. apply W2. exact Ht.
Qed.

Lemma wfr_id info t : wf_rw info -> In t info -> nth_error info (ti_id t) = Some t.
Proof.
  intros [W _] H. apply In_nth_error in H. destruct H as [n H]. assert (E : nth_error (map ti_id info) n = Some (ti_id t)) by (apply map_nth_error; exact H).
  rewrite W in E. assert (L : (n < length info)%nat) by (apply nth_error_Some; congruence).
  rewrite (nth_error_nth' (seq 0 (length info)) 0%nat) in E by (rewrite seq_length; exact L). rewrite seq_nth in E by exact L. injection E as E. rewrite <- E. exact H.
Qed.

Lemma wfr_nth info i t : wf_rw info -> nth_error info i = Some t -> ti_id t = i /\ In t info.
Proof.
  intros [W W2] H. assert (E : nth_error (map ti_id info) i = Some (ti_id t)) by (apply map_nth_error; exact H).
  rewrite W in E. assert (L : (i < length info)%nat) by (apply nth_error_Some; congruence).
  rewrite (nth_error_nth' (seq 0 (length info)) 0%nat) in E by (rewrite seq_length; exact L). rewrite seq_nth in E by exact L. injection E as E.
  split; [symmetry; exact E|eapply nth_error_In; exact H].
Qed.

(** * The greedy bound covers selections keyed by tasks *)
Lemma cont_safe cont excl interval mt ps sel : NoDup (map tkey cont) -> sorted_by_length cont ->
  (forall k l, In (k, l) sel -> exists r, In r cont /\ tkey r = k /\ excl (rb_task r) = false /\ l <= rb_len r) ->
  (forall r, In r cont -> occurrences (tkey r) sel <= get_max_num_requests r interval) ->
  (forall k, occurrences k sel <= ps) -> N.of_nat (length sel) <= mt ->
  total_length sel <= i_len (bb_loop excl interval ps cont mt inter0) /\ N.of_nat (length sel) <= i_count (bb_loop excl interval ps cont mt inter0).
Proof.
  intros ND SO S1 S2 S3 S4. rewrite (bb_loop_greedy tkey), iadd_0_l. apply greedy_safe.
  - unfold sources. rewrite map_map. exact ND.
  - apply sources_decreasing, SO.
  - intros k l H. destruct (S1 k l H) as [r [A [B [C D]]]]. exists (tkey r, avail excl interval ps r, rb_len r). split; [|split; [exact B|exact D]].
    unfold sources. apply in_map_iff. exists r. split; [reflexivity|exact A].
  - intros p H. unfold sources in H. apply in_map_iff in H. destruct H as [r [<- H]]. unfold skey, savail; cbn [fst snd]. unfold avail.
    destruct (excl (rb_task r)) eqn:E.
    + rewrite occ_none; [apply N.le_0_l|]. intros l Hl. destruct (S1 _ _ Hl) as [r' [A [B [C _]]]].
      assert (r' = r); [|congruence]. clear - ND A H B. induction cont as [|x c IH]; [destruct A|]. cbn [map] in ND. inversion ND as [|u v NI ND']; subst.
      destruct A as [->|A], H as [->|H]; [reflexivity| | |apply IH; assumption]; exfalso; apply NI; [rewrite B|rewrite <- B]; apply in_map; assumption.
    + specialize (S2 r H). specialize (S3 (tkey r)). lia.
  - exact S4.
Qed.

(** * Requests that delay a job *)
Open Scope Z_scope.
Definition nsum (l : list nat) : nat := fold_right Nat.add 0%nat l.

Definition rtask (a : rwreq) : nat := cr_task (fst a).
Definition rdur (a : rwreq) : Z := cr_end (fst a) - cr_start (fst a).

Section Hits.
Variables (info : list taskinfo) (procs : N) (irq : option nat) (rel comp : nat -> nat -> Z) (res : nat) (tr : list rwreq).
Variable W : wf_rw info.
Variable SJ : forall t, In t info -> sporadic_jobs (ti_period t) (ti_response t) (rel (ti_id t)) (comp (ti_id t)).
Variable RT : rw_trace info procs irq rel comp res tr.
Variables (tsk : taskinfo) (k : nat).
Variable Htsk : In tsk info.
Variable mine : list rwreq.
Variable Hmine : forall b, In b mine -> In b tr /\ rtask b = ti_id tsk /\ cr_job (fst b) = k.
Variable Hapart : ForallOrdPairs (fun a b => apart (fst a) (fst b)) mine.
Variable blocks : rwreq -> rwreq -> bool.
Variable Hblocks : forall a b, In a tr -> In b mine -> blocks a b = true -> cr_start (fst a) < cr_start (fst b) /\ cr_issue (fst b) < cr_end (fst a).

Definition rhit : list rwreq := filter (fun a => existsb (blocks a) mine) tr.

Lemma rhit_in a : In a rhit <-> In a tr /\ exists b, In b mine /\ blocks a b = true.
Proof. unfold rhit. rewrite filter_In, existsb_exists. tauto. Qed.

Lemma rt_times' a : In a tr -> cr_issue (fst a) <= cr_start (fst a) < cr_end (fst a).
Proof. destruct a as [c d]. intros H. apply (rt_times _ _ _ _ _ _ _ RT c d H). Qed.

Lemma rt_spec' a : In a tr -> exists t q, nth_error info (rtask a) = Some t /\ In q (ti_requests t) /\ q_res q = res /\ q_read q = snd a /\ rdur a <= Z.of_N (q_len q).
Proof. destruct a as [c d]. intros H. apply (rt_spec _ _ _ _ _ _ _ RT c d H). Qed.

Lemma overlap_task a b : In a tr -> In b tr -> cr_start (fst a) < cr_start (fst b) -> cr_issue (fst b) < cr_end (fst a) -> rtask a <> rtask b.
Proof.
  intros Ha Hb H1 H2 E. pose proof (rt_times' a Ha). pose proof (rt_times' b Hb). unfold rtask in E.
  destruct (fop_cases _ _ a b (rt_sequential _ _ _ _ _ _ _ RT) Ha Hb) as [X|[X|X]]; [subst; lia| |]; unfold apart in X; specialize (X ltac:(congruence)); lia.
Qed.

Lemma overlap_cpu a b t u : In a tr -> In b tr -> cr_start (fst a) < cr_start (fst b) -> cr_issue (fst b) < cr_end (fst a) ->
  nth_error info (rtask a) = Some t -> nth_error info (rtask b) = Some u -> ti_cluster t = ti_cluster u -> cr_cpu (fst a) <> cr_cpu (fst b).
Proof.
  intros Ha Hb H1 H2 T U C E. pose proof (rt_times' a Ha). pose proof (rt_times' b Hb).
  destruct (fop_cases _ _ a b (rt_nonpreemptive _ _ _ _ _ _ _ RT) Ha Hb) as [X|[X|X]]; [subst; lia| |]; unfold apart in X.
  - specialize (X t u T U C E). lia.
  - specialize (X u t U T (eq_sym C) (eq_sym E)). lia.
Qed.

Lemma rhit_facts a : In a rhit -> In a tr /\ rtask a <> ti_id tsk /\
  rel (rtask a) (cr_job (fst a)) < rel (ti_id tsk) k + Z.of_N (ti_response tsk) /\ rel (ti_id tsk) k <= comp (rtask a) (cr_job (fst a)).
Proof.
  intros Ha. apply rhit_in in Ha. destruct Ha as [Ia [b [Hb Hab]]]. destruct (Hblocks a b Ia Hb Hab) as [B2 B3].
  apply Hmine in Hb. destruct Hb as [Ib [Tb Jb]]. pose proof (overlap_task a b Ia Ib B2 B3) as OT.
  destruct a as [a da], b as [b db]. unfold rtask in *. cbn [fst] in *.
  pose proof (rt_job _ _ _ _ _ _ _ RT a da Ia) as Ja. pose proof (rt_job _ _ _ _ _ _ _ RT b db Ib) as Jb'. rewrite Tb, Jb in Jb'.
  pose proof (proj2 (SJ tsk Htsk) k) as R. pose proof (rt_times _ _ _ _ _ _ _ RT b db Ib) as Xb. pose proof (rt_times _ _ _ _ _ _ _ RT a da Ia) as Xa.
  split; [exact Ia|]. split; [congruence|]. lia.
Qed.

Lemma rhit_jobs t p n : In t info -> (forall j, (length (filter (fun a => is_job (ti_id t) j (fst a) && p a) tr) <= N.to_nat n)%nat) ->
  (N.of_nat (length (filter (fun a => p a && Nat.eqb (rtask a) (ti_id t)) rhit)) <= get_max_num_jobs t (ti_response tsk) * n)%N.
Proof.
  intros Ht Hn. set (L := filter (fun a => p a && Nat.eqb (rtask a) (ti_id t)) rhit).
  assert (GJ : (length (map fst L) <= length (nodup Nat.eq_dec (map cr_job (map fst L))) * N.to_nat n)%nat).
  { apply group_by_job. intros j. rewrite filter_map, map_length. unfold L, rhit. rewrite !filter_filter. etransitivity; [|exact (Hn j)].
    apply filter_sub. intros a _ X. unfold is_job. unfold rtask in X. destruct (p a), (Nat.eqb (cr_task (fst a)) (ti_id t)), (Nat.eqb (cr_job (fst a)) j), (existsb (blocks a) mine); try discriminate; reflexivity. }
  assert (JB : (N.of_nat (length (nodup Nat.eq_dec (map cr_job (map fst L)))) <= get_max_num_jobs t (ti_response tsk))%N).
  { apply (jobs_safe t (rel (ti_id t)) (comp (ti_id t)) (rel (ti_id tsk) k)).
    - apply W; exact Ht.
    - apply SJ; exact Ht.
    - apply NoDup_nodup.
    - intros j Hj. apply nodup_In in Hj. rewrite map_map in Hj. apply in_map_iff in Hj. destruct Hj as [a [<- Ha]]. apply filter_In in Ha. destruct Ha as [Ha Et]. apply andb_true_iff in Et. destruct Et as [_ Et]. apply Nat.eqb_eq in Et.
      destruct (rhit_facts a Ha) as [_ [_ [B1 B2]]]. rewrite Et in B1, B2. split; assumption. }
  rewrite map_length in GJ. nia.
Qed.

Lemma rhit_count p (K : rwreq -> nat) : (forall b, In b mine -> (length (filter (fun a => blocks a b && p a) tr) <= K b)%nat) -> (length (filter p rhit) <= nsum (map K mine))%nat.
Proof.
  intros H. unfold rhit. rewrite filter_filter. clear Hblocks Hmine Hapart. induction mine as [|b r IH].
  - cbn [existsb]. clear. induction tr as [|a l IH]; [cbn; lia|exact IH].
  - specialize (IH (fun x Hx => H x (or_intror Hx))). specialize (H b (or_introl eq_refl)). cbn [map nsum fold_right].
    assert (L : (length (filter (fun a => existsb (blocks a) (b :: r) && p a) tr) <= length (filter (fun a => blocks a b && p a) tr) + length (filter (fun a => existsb (blocks a) r && p a) tr))%nat).
    { clear. induction tr as [|a l IH]; [cbn; lia|]. cbn [filter existsb] in *. destruct (blocks a b), (existsb (blocks a) r), (p a); cbn [orb andb length] in *; lia. }
    unfold nsum in IH. lia.
Qed.

(** requests that delay at most one request of the job *)
Lemma rhit_disjoint p : ForallOrdPairs (fun b b' => forall a, In a tr -> p a = true -> blocks a b = true -> blocks a b' = true -> False) mine ->
  (nsum (map (fun b => length (filter (fun a => blocks a b && p a) tr)) mine) <= length (filter p rhit))%nat.
Proof.
  intros H. unfold rhit. rewrite filter_filter. clear Hblocks Hmine Hapart. induction H as [|b r F P IH]; [cbn; lia|].
  cbn [map nsum fold_right]. unfold nsum in IH.
  assert (L : (length (filter (fun a => blocks a b && p a) tr) + length (filter (fun a => existsb (blocks a) r && p a) tr) <= length (filter (fun a => existsb (blocks a) (b :: r) && p a) tr))%nat).
  { rewrite Forall_forall in F. assert (G : forall l, (forall a, In a l -> In a tr) -> (length (filter (fun a => blocks a b && p a) l) + length (filter (fun a => existsb (blocks a) r && p a) l) <= length (filter (fun a => existsb (blocks a) (b :: r) && p a) l))%nat).
    { induction l as [|a l IHl]; intros HI; [cbn; lia|]. specialize (IHl (fun x Hx => HI x (or_intror Hx))). cbn [filter existsb] in *.
      destruct (blocks a b) eqn:B1, (existsb (blocks a) r) eqn:B2, (p a) eqn:B3; cbn [orb andb length] in *; try lia.
      exfalso. apply existsb_exists in B2. destruct B2 as [b' [I B2]]. apply (F b' I a (HI a (or_introl eq_refl)) B3 B1 B2). }
    apply G. auto. }
  lia.
Qed.

Lemma rhit_time :
  (forall b t, In b mine -> waits (fst b) t -> exists a, In a tr /\ blocks a b = true /\ holds (fst a) t) ->
  zsum (map (fun b => cr_start (fst b) - cr_issue (fst b)) mine) <= zsum (map rdur rhit).
Proof.
  intros H. pose proof (blamed (map fst mine) (map fst rhit) (fun _ _ => true) (fun _ _ => true)) as B. rewrite !map_map in B.
  rewrite (zsum_ext _ (fun b => cr_start (fst b) - cr_issue (fst b)) mine) in B.
  2:{ intros b Hb. rewrite instants_all. apply Hmine in Hb. destruct Hb as [Hb _]. pose proof (rt_times' b Hb). lia. }
  rewrite (zsum_ext _ rdur rhit) in B.
  2:{ intros b Hb. rewrite instants_all. apply rhit_in in Hb. destruct Hb as [Hb _]. pose proof (rt_times' b Hb). unfold rdur. lia. }
  apply B.
  - intros c [Hc|Hc]; apply in_map_iff in Hc; destruct Hc as [x [<- Hx]].
    + apply Hmine in Hx. pose proof (rt_times' x (proj1 Hx)). lia.
    + apply rhit_in in Hx. pose proof (rt_times' x (proj1 Hx)). lia.
  - clear - Hapart. induction Hapart as [|x r F P IH]; cbn [map]; [constructor|]. constructor; [|exact (IH P)]. rewrite Forall_forall in *. intros y Hy. apply in_map_iff in Hy. destruct Hy as [z [<- Hz]]. apply F. exact Hz.
  - intros c t Hc Hw _. apply in_map_iff in Hc. destruct Hc as [b [<- Hb]]. destruct (H b t Hb Hw) as [a [A1 [A2 A3]]]. exists (fst a). split; [|split; [exact A3|reflexivity]].
    apply in_map. apply rhit_in. split; [exact A1|]. exists b. auto.
Qed.

(** selections *)
Definition rsel (p : rwreq -> bool) : list (nat * N) := map (fun a => (rtask a, Z.to_N (rdur a))) (filter p rhit).

Lemma rsel_occ p i : occurrences i (rsel p) = N.of_nat (length (filter (fun a => p a && Nat.eqb (rtask a) i) rhit)).
Proof. unfold occurrences, rsel. f_equal. rewrite filter_map, map_length. cbn [fst]. rewrite filter_filter. reflexivity. Qed.

Lemma rsel_length p : length (rsel p) = length (filter p rhit).
Proof. apply map_length. Qed.

Lemma rsel_total p : zsum (map rdur (filter p rhit)) = Z.of_N (total_length (rsel p)).
Proof.
  unfold rsel. assert (G : forall l, (forall a, In a l -> 0 <= rdur a) -> zsum (map rdur l) = Z.of_N (total_length (map (fun a => (rtask a, Z.to_N (rdur a))) l))).
  { induction l as [|a l IH]; intros H; [reflexivity|]. cbn [map total_length fold_right snd]. rewrite zsum_cons, (IH (fun x Hx => H x (or_intror Hx))). unfold total_length. specialize (H a (or_introl eq_refl)). lia. }
  apply G. intros a Ha. apply filter_In in Ha. destruct Ha as [Ha _]. apply rhit_in in Ha. pose proof (rt_times' a (proj1 Ha)). unfold rdur. lia.
Qed.

Definition rcluster (a : rwreq) : nat := match nth_error info (rtask a) with Some t => ti_cluster t | None => 0%nat end.

Lemma rcluster_lt a : In a tr -> (rcluster a < num_clusters info)%nat.
Proof. intros Ha. destruct (rt_spec' a Ha) as [t [q [N1 _]]]. unfold rcluster. rewrite N1. apply cluster_lt. eapply nth_error_In; exact N1. Qed.

(** the requests of one type fit the request bounds of that type *)
Lemma rsel_fits p d t x : (forall a, p a = true -> snd a = d) -> In t info -> In x (ti_requests t) -> q_res x = res -> q_read x = d ->
  (occurrences (ti_id t) (rsel p) <= get_max_num_requests (RB t x) (ti_response tsk))%N.
Proof.
  intros Hp Ht Hx Er Ed. rewrite rsel_occ. unfold get_max_num_requests; cbn [rb_task rb_req]. apply rhit_jobs; [exact Ht|].
  intros j. pose proof (rt_number _ _ _ _ _ _ _ RT (ti_id t) j t x (wfr_id info t W Ht) Hx Er) as NB. rewrite Ed in NB.
  assert ((length (filter (fun a => is_job (ti_id t) j (fst a) && p a) tr) <= length (filter (fun c => is_job (ti_id t) j (fst c) && Bool.eqb (snd c) d) tr))%nat); [|lia].
  apply filter_sub. intros a _ X. apply andb_true_iff in X. destruct X as [X1 X2]. rewrite X1, (Hp a X2). destruct d; reflexivity.
Qed.

(** the bound on the writers of one cluster *)
Lemma writers_cluster c mt ps p : (forall a, p a = true -> snd a = false /\ rcluster a = c) ->
  (length (filter p rhit) <= N.to_nat mt)%nat -> (forall i, (length (filter (fun a => p a && Nat.eqb (rtask a) i) rhit) <= N.to_nat ps)%nat) ->
  (total_length (rsel p) <= i_len (bound_blocking (wcont info c res) (ti_response tsk) mt ps (ti_id tsk) 0) /\
   N.of_nat (length (rsel p)) <= i_count (bound_blocking (wcont info c res) (ti_response tsk) mt ps (ti_id tsk) 0))%N.
Proof.
  intros Hp Hm Hs. unfold bound_blocking. apply cont_safe.
  - apply wcont_nodup, W.
  - apply wcont_sorted.
  - intros i l Hin. unfold rsel in Hin. apply in_map_iff in Hin. destruct Hin as [a [E Ha]]. injection E as <- <-. apply filter_In in Ha. destruct Ha as [Ha Hpa].
    destruct (rhit_facts a Ha) as [A1 [A2 _]]. destruct (rt_spec' a A1) as [t [q [N1 [N2 [N3 [N4 N5]]]]]]. destruct (Hp a Hpa) as [P1 P2]. unfold rcluster in P2. rewrite N1 in P2.
    destruct (wfr_nth info _ t W N1) as [E1 E2]. exists (RB t q). split; [apply in_wcont; cbn; rewrite N4; auto|]. split; [exact E1|]. split; [|unfold rb_len; cbn; lia].
    cbn. rewrite prio_excl. apply Nat.eqb_neq. congruence.
  - intros r Hr. apply in_wcont in Hr. destruct Hr as [R1 [R2 [R3 [R4 R5]]]]. destruct r as [t x]. cbn in *. apply (rsel_fits p false t x); auto. intros a Hpa. apply (Hp a Hpa).
  - intros i. rewrite rsel_occ. specialize (Hs i). lia.
  - rewrite rsel_length. lia.
Qed.
End Hits.

(** sums over the clusters *)
Lemma zsum_partition' {A} (f : A -> Z) (g : A -> nat) l n : (forall a, In a l -> (g a < n)%nat) ->
  zsum (map f l) = zsum (map (fun c => zsum (map f (filter (fun a => Nat.eqb (g a) c) l))) (seq 0 n)).
Proof.
  induction l as [|a r IH]; intros H.
  - induction (seq 0 n) as [|c s IHs]; [reflexivity|]. cbn [map]. rewrite zsum_cons, <- IHs. reflexivity.
  - cbn [map]. rewrite zsum_cons, (IH (fun x Hx => H x (or_intror Hx))). clear IH.
    specialize (H a (or_introl eq_refl)).
    assert (G : forall s, NoDup s -> zsum (map (fun c => zsum (map f (filter (fun a0 => Nat.eqb (g a0) c) (a :: r)))) s) =
      (if existsb (Nat.eqb (g a)) s then f a else 0) + zsum (map (fun c => zsum (map f (filter (fun a0 => Nat.eqb (g a0) c) r))) s)).
    { induction s as [|c s IHs]; intros ND; [reflexivity|]. inversion ND as [|x y NI ND']; subst. cbn [map existsb]. rewrite !zsum_cons, (IHs ND').
      cbn [filter]. destruct (Nat.eqb_spec (g a) c) as [E|E]; cbn [map orb].
      - replace (existsb (Nat.eqb (g a)) s) with false; [rewrite zsum_cons; lia|]. symmetry. apply not_true_is_false. intros X. apply existsb_exists in X. destruct X as [y [Y1 Y2]].
        apply Nat.eqb_eq in Y2. apply NI. congruence.
      - lia. }
    rewrite (G _ (seq_NoDup n 0)). replace (existsb (Nat.eqb (g a)) (seq 0 n)) with true; [reflexivity|].
    symmetry. apply existsb_exists. exists (g a). split; [apply in_seq; lia|apply Nat.eqb_refl].
Qed.
