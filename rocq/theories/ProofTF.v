(** Task-fair reader-writer locks: the bounds on the spinning of a job. *)
From Coq Require Import NArith ZArith List Bool Sorted Permutation Lia Arith.
From Verif Require Import ModelLocking ModelResources ModelRW SpecLocking SpecQueue SpecRW ProofLocking ProofSpin ProofQueue ProofRW ProofPF ProofLaminar.
Import ListNotations.
Open Scope Z_scope.

Lemma minimum {A} (f : A -> Z) (l : list A) : l <> [] -> exists a, In a l /\ forall b, In b l -> f a <= f b.
Proof.
  induction l as [|a l IH]; intros H; [congruence|]. destruct l as [|b l].
  - exists a. split; [left; reflexivity|]. intros b [<-|[]]. lia.
  - destruct (IH ltac:(discriminate)) as [c [C1 C2]]. destruct (Z.leb_spec (f a) (f c)) as [E|E].
    + exists a. split; [left; reflexivity|]. intros x [<-|Hx]; [lia|]. specialize (C2 x Hx). lia.
    + exists c. split; [right; exact C1|]. intros x [<-|Hx]; [lia|apply C2; exact Hx].
Qed.

Lemma np_fifo_writes info tsk procs q issued irq :
  np_fifo_per_resource tsk (cluster_writes info) procs q issued irq =
  Inter (sumN (map (fun c => i_count (bound_blocking (wcont info c q) (ti_response tsk) (issued * parallel procs irq (ti_cluster tsk) c) issued (ti_id tsk) 0)) (seq 0 (num_clusters info))))
        (sumN (map (fun c => i_len (bound_blocking (wcont info c q) (ti_response tsk) (issued * parallel procs irq (ti_cluster tsk) c) issued (ti_id tsk) 0)) (seq 0 (num_clusters info)))).
Proof.
  unfold np_fifo_per_resource. rewrite <- (writes_all_clusters info (fun c => (issued * parallel procs irq (ti_cluster tsk) c, issued)%N)). f_equal. unfold np_fifo_limits. apply map_ext. intros c.
  rewrite <- parallel_eq. reflexivity.
Qed.

Lemma nodup_key {A B} (f : A -> B) l x y : NoDup (map f l) -> In x l -> In y l -> f x = f y -> x = y.
Proof.
  induction l as [|a l IH]; intros ND Hx Hy E; [destruct Hx|]. cbn [map] in ND. inversion ND as [|u v NI ND']; subst.
  destruct Hx as [->|Hx], Hy as [->|Hy]; [reflexivity| | |apply IH; assumption]; exfalso; apply NI; [rewrite E|rewrite <- E]; apply in_map; assumption.
Qed.

Lemma climit_parallel procs issued irq own c : climit procs issued irq own c = (issued * parallel procs irq own c)%N.
Proof. unfold climit, parallel. reflexivity. Qed.

Section TF.
Variables (info : list taskinfo) (procs : N) (irq : option nat) (rel comp : nat -> nat -> Z) (res : nat) (tr : list rwreq).
Variable W : wf_rw info.
Variable SJ : forall t, In t info -> sporadic_jobs (ti_period t) (ti_response t) (rel (ti_id t)) (comp (ti_id t)).
Variable TF : task_fair_execution info procs irq rel comp res tr.
Variables (tsk : taskinfo) (k : nat).
Variable Htsk : In tsk info.
Variable mine : list rwreq.
Variable Hmine : forall b, In b mine -> In b tr /\ rtask b = ti_id tsk /\ cr_job (fst b) = k.
Variable Hapart : ForallOrdPairs (fun a b => apart (fst a) (fst b)) mine.

Let RT : rw_trace info procs irq rel comp res tr := tf_trace _ _ _ _ _ _ _ TF.
Let times a (Ha : In a tr) := rt_times' info procs irq rel comp res tr RT a Ha.

(** ** The queue in terms of times *)
Lemma tf_order a b : In a tr -> In b tr -> snd a && snd b = false -> cr_start (fst a) < cr_start (fst b) -> cr_end (fst a) <= cr_start (fst b) /\ cr_issue (fst a) <= cr_issue (fst b).
Proof.
  intros Ha Hb C L. pose proof (times a Ha). pose proof (times b Hb).
  destruct (fop_cases _ _ a b (tf_fifo _ _ _ _ _ _ _ TF) Ha Hb) as [E|[[E1 E2]|[E1 E2]]]; [subst; lia| |].
  - split; [apply E2; exact C|exact E1].
  - assert (X : cr_end (fst b) <= cr_start (fst a)) by (apply E2; unfold conflict; rewrite andb_comm; exact C). lia.
Qed.

Lemma tf_wait b t : In b tr -> waits (fst b) t -> exists a, In a tr /\ snd a && snd b = false /\ cr_end (fst a) <= cr_start (fst b) /\ cr_issue (fst a) <= cr_issue (fst b) /\ t < cr_end (fst a).
Proof.
  intros Hb Hw. destruct (in_split _ _ Hb) as [pre [post E]]. destruct (tf_waits _ _ _ _ _ _ _ TF pre b post E t Hw) as [a [Ia [Ca Ta]]].
  pose proof (tf_fifo _ _ _ _ _ _ _ TF) as F. rewrite E in F.
  assert (X : cr_issue (fst a) <= cr_issue (fst b) /\ (conflict a b -> cr_end (fst a) <= cr_start (fst b))).
  { clear - F Ia. induction pre as [|x pre IH]; [destruct Ia|]. cbn [app] in F. inversion F as [|u v F1 F2]; subst. destruct Ia as [->|Ia]; [|apply IH; assumption].
    rewrite Forall_forall in F1. apply F1. apply in_or_app. right. left. reflexivity. }
  exists a. split; [rewrite E; apply in_or_app; left; exact Ia|]. split; [exact Ca|]. split; [apply X; exact Ca|]. split; [apply X|exact Ta].
Qed.

(** the last reader in front of a writer *)
Definition front (w r : rwreq) : bool := snd r && (cr_end (fst r) <=? cr_start (fst w)).
Definition lead (w r : rwreq) : bool := front w r && forallb (fun r' => negb (front w r') || later r' r) tr.
Definition wset (b : rwreq) : list rwreq := filter (fun a => wblk a b) tr ++ (if snd b then [] else [b]).
Definition lblk (r b : rwreq) : bool := (cr_issue (fst b) <? cr_end (fst r)) && existsb (fun w => lead w r) (wset b).
Definition tblocks (a b : rwreq) : bool := wblk a b || lblk a b.

Lemma front_spec w r : front w r = true <-> snd r = true /\ cr_end (fst r) <= cr_start (fst w).
Proof. unfold front. rewrite andb_true_iff, Z.leb_le. tauto. Qed.
Lemma lead_spec w r : lead w r = true <-> (snd r = true /\ cr_end (fst r) <= cr_start (fst w)) /\ forall r', In r' tr -> snd r' = true -> cr_end (fst r') <= cr_start (fst w) -> later r' r = true.
Proof.
  unfold lead. rewrite andb_true_iff, front_spec, forallb_forall. split; intros [H1 H2]; (split; [exact H1|]).
  - intros r' I S H. specialize (H2 r' I). apply orb_true_iff in H2. destruct H2 as [H2|H2]; [|exact H2]. apply negb_true_iff in H2. assert (front w r' = true) by (apply front_spec; auto). congruence.
  - intros r' I. destruct (front w r') eqn:E; [|reflexivity]. apply front_spec in E. cbn. apply H2; tauto.
Qed.
Lemma wset_spec b w : In b tr -> In w (wset b) -> In w tr /\ snd w = false /\ cr_start (fst w) <= cr_start (fst b) /\ cr_issue (fst w) <= cr_issue (fst b).
Proof.
  intros Hb H. apply in_app_or in H. destruct H as [H|H].
  - apply filter_In in H. destruct H as [I H]. apply wblk_spec in H. split; [exact I|]. split; [tauto|]. split; [lia|]. apply (tf_order w b I Hb); [rewrite (proj1 H); reflexivity|tauto].
  - destruct (snd b) eqn:D; [destruct H|]. destruct H as [<-|[]]. repeat split; auto; lia.
Qed.
Lemma lblk_spec r b : lblk r b = true <-> cr_issue (fst b) < cr_end (fst r) /\ exists w, In w (wset b) /\ lead w r = true.
Proof. unfold lblk. rewrite andb_true_iff, Z.ltb_lt, existsb_exists. tauto. Qed.
Lemma lblk_read r b : lblk r b = true -> snd r = true.
Proof. intros H. apply lblk_spec in H. destruct H as [_ [w [_ H]]]. apply lead_spec in H. tauto. Qed.

(** every blocking request was issued before and is pending *)
Lemma tblocks_pending a b : In a tr -> In b tr -> tblocks a b = true -> cr_issue (fst a) <= cr_issue (fst b) < cr_end (fst a) /\ cr_end (fst a) <= cr_start (fst b).
Proof.
  intros Ha Hb H. apply orb_true_iff in H. destruct H as [H|H].
  - apply wblk_spec in H. destruct H as [H1 [H2 H3]]. destruct (tf_order a b Ha Hb) as [E1 E2]; [rewrite H1; reflexivity|exact H2|lia].
  - apply lblk_spec in H. destruct H as [H1 [w [Iw H2]]]. apply lead_spec in H2. destruct H2 as [[S1 S2] _]. destruct (wset_spec b w Hb Iw) as [W1 [W2 [W3 W4]]].
    pose proof (times a Ha). destruct (tf_order a w Ha W1) as [_ E2]; [rewrite W2; apply andb_false_r|lia|lia].
Qed.

Lemma tblocks_facts a b : In a tr -> In b mine -> tblocks a b = true -> cr_start (fst a) < cr_start (fst b) /\ cr_issue (fst b) < cr_end (fst a).
Proof. intros Ha Hb H. pose proof (tblocks_pending a b Ha (proj1 (Hmine b Hb)) H). pose proof (times a Ha). lia. Qed.

Lemma lead_exists w r : In r tr -> snd r = true -> cr_end (fst r) <= cr_start (fst w) -> exists r', In r' tr /\ lead w r' = true /\ cr_end (fst r) <= cr_end (fst r').
Proof.
  intros Hr Sr Hh. assert (I : In r (filter (front w) tr)) by (apply filter_In; split; [exact Hr|]; apply front_spec; auto).
  destruct (latest (filter (front w) tr)) as [r' [R1 R2]]; [intros E; rewrite E in I; destruct I|].
  exists r'. apply filter_In in R1. destruct R1 as [R1 R3]. split; [exact R1|]. split.
  - apply lead_spec. apply front_spec in R3. split; [exact R3|]. intros r0 I0 S0 H0. apply R2. apply filter_In. split; [exact I0|]. apply front_spec; auto.
  - specialize (R2 r I). apply later_spec in R2. lia.
Qed.

Lemma lead_unique w : (length (filter (lead w) tr) <= 1)%nat.
Proof.
  assert (F2 : ForallOrdPairs (fun a b : rwreq => False) (filter (lead w) tr)).
  { pose proof (fop_filter _ (lead w) tr (rt_sequential _ _ _ _ _ _ _ RT)) as F. revert F. apply fop_impl_in. intros a b Ha Hb F. apply filter_In in Ha, Hb. destruct Ha as [Ia Ha], Hb as [Ib Hb].
    apply lead_spec in Ha, Hb. destruct Ha as [[A1 A2] A3], Hb as [[B1 B2] B3]. specialize (A3 b Ib B1 B2). specialize (B3 a Ia A1 A2). apply later_spec in A3, B3. unfold rtask in *.
    specialize (F ltac:(lia)). pose proof (times a Ia). pose proof (times b Ib). unfold apart in F. lia. }
  destruct (filter (lead w) tr) as [|a [|b l]]; cbn [length]; [lia|lia|]. inversion F2 as [|u v X _]; subst. rewrite Forall_forall in X. destruct (X b (or_introl eq_refl)).
Qed.

(** ** Every waiting instant is covered *)
Lemma tf_cover b t : In b mine -> waits (fst b) t -> exists a, In a tr /\ tblocks a b = true /\ holds (fst a) t.
Proof.
  intros Hb Hw. pose proof (proj1 (Hmine b Hb)) as Ib. pose proof (times b Ib) as Tb.
  set (S := filter (fun w => t <? cr_end (fst w)) (wset b)).
  assert (SI : forall w, In w S <-> In w (wset b) /\ t < cr_end (fst w)) by (intros w; unfold S; rewrite filter_In, Z.ltb_lt; tauto).
  assert (NE : S <> []).
  { destruct (snd b) eqn:D.
    - destruct (tf_wait b t Ib Hw) as [a [Ia [Ca [Ea [Ja Ta]]]]]. rewrite D, andb_true_r in Ca. intros E. assert (X : In a S); [|rewrite E in X; destruct X].
      apply SI. split; [|exact Ta]. apply in_or_app. left. apply filter_In. split; [exact Ia|]. apply wblk_spec. pose proof (times a Ia). unfold waits in Hw. split; [exact Ca|lia].
    - intros E. assert (X : In b S); [|rewrite E in X; destruct X]. apply SI. split; [|unfold waits in Hw; lia]. apply in_or_app. right. rewrite D. left. reflexivity. }
  destruct (minimum (fun w => cr_start (fst w)) S NE) as [w [Iw Mw]]. apply SI in Iw. destruct Iw as [Iw Tw]. destruct (wset_spec b w Ib Iw) as [W1 [W2 [W3 W4]]].
  (* no earlier writer is incomplete *)
  assert (NW : forall a, In a tr -> snd a = false -> cr_start (fst a) < cr_start (fst w) -> t < cr_end (fst a) -> False).
  { intros a Ia Sa La Ta. assert (X : In a S); [|specialize (Mw a X); cbv beta in Mw; lia]. apply SI. split; [|exact Ta]. apply in_or_app. left. apply filter_In. split; [exact Ia|]. apply wblk_spec. unfold waits in Hw. split; [exact Sa|lia]. }
  (* readers in front of it do not wait *)
  assert (RH : forall r, In r tr -> snd r = true -> cr_end (fst r) <= cr_start (fst w) -> t < cr_end (fst r) -> holds (fst r) t).
  { intros r Ir Sr Er Tr. split; [|exact Tr]. destruct (Z.leb_spec (cr_start (fst r)) t) as [L|L]; [exact L|]. exfalso. pose proof (times r Ir).
    destruct (tf_order r w Ir W1) as [_ Jr]; [rewrite W2; apply andb_false_r|lia|].
    destruct (tf_wait r t Ir) as [a [Ia [Ca [Ea [Ja Ta]]]]]; [unfold waits in *; lia|]. rewrite Sr, andb_true_r in Ca. pose proof (times a Ia). apply (NW a Ia Ca); lia. }
  destruct (Z.leb_spec (cr_start (fst w)) t) as [L|L].
  - exists w. split; [exact W1|]. split; [|split; assumption]. apply orb_true_iff. left. apply wblk_spec. unfold waits in Hw. split; [exact W2|]. lia.
  - destruct (tf_wait w t W1) as [a [Ia [Ca [Ea [Ja Ta]]]]]; [unfold waits in *; lia|]. pose proof (times a Ia) as Tma.
    destruct (snd a) eqn:Sa; [|exfalso; apply (NW a Ia Sa); lia].
    destruct (lead_exists w a Ia Sa Ea) as [r [Ir [Lr Er]]]. exists r. split; [exact Ir|]. pose proof (proj1 (proj1 (lead_spec w r) Lr)) as [Sr Fr]. split.
    + apply orb_true_iff. right. apply lblk_spec. split; [unfold waits in Hw; lia|]. exists w. auto.
    + apply RH; auto. lia.
Qed.

(** ** Counting *)
Notation rclu := (rcluster info).

Lemma tcluster_occupied (l : list rwreq) x c : ForallOrdPairs (fun a b => forall t u, nth_error info (cr_task (fst a)) = Some t -> nth_error info (cr_task (fst b)) = Some u ->
    ti_cluster t = ti_cluster u -> cr_cpu (fst a) = cr_cpu (fst b) -> apart (fst a) (fst b)) l ->
  (forall a, In a l -> In a tr /\ rclu a = c /\ cr_issue (fst a) <= x < cr_end (fst a)) -> NoDup (map (fun a => cr_cpu (fst a)) l).
Proof.
  intros F H. assert (F2 : ForallOrdPairs (fun a b : rwreq => cr_cpu (fst a) <> cr_cpu (fst b)) l).
  { revert F. apply fop_impl_in. intros a b Ha Hb F E. destruct (H a Ha) as [Ia [Ca Xa]]. destruct (H b Hb) as [Ib [Cb Xb]].
    destruct (rt_spec' info procs irq rel comp res tr RT a Ia) as [t [q [N1 _]]]. destruct (rt_spec' info procs irq rel comp res tr RT b Ib) as [u [q' [M1 _]]].
    unfold rcluster in Ca, Cb. rewrite N1 in Ca. rewrite M1 in Cb. specialize (F t u N1 M1 ltac:(congruence) E). unfold apart in F. lia. }
  clear - F2. induction F2 as [|a l F P IH]; cbn; constructor; [|exact IH]. intros X. apply in_map_iff in X. destruct X as [y [E Y]]. rewrite Forall_forall in F. apply (F y Y). congruence.
Qed.

Lemma tcpu_lt a : In a tr -> (N.of_nat (cr_cpu (fst a)) < available procs irq (rclu a))%N.
Proof.
  intros Ia. destruct (rt_spec' info procs irq rel comp res tr RT a Ia) as [t [q [N1 _]]]. unfold rcluster. rewrite N1. destruct a as [a d]. apply (rt_cpu _ _ _ _ _ _ _ RT a d t Ia N1).
Qed.

Lemma tmine_cluster b : In b mine -> rclu b = ti_cluster tsk.
Proof. intros Hb. apply Hmine in Hb. destruct Hb as [_ [T _]]. unfold rcluster. rewrite T, (wfr_id info tsk W Htsk). reflexivity. Qed.

Lemma town_cpu a b : In a tr -> In b mine -> tblocks a b = true -> rclu a = ti_cluster tsk -> cr_cpu (fst a) <> cr_cpu (fst b).
Proof.
  intros Ha Hb H C. destruct (tblocks_facts a b Ha Hb H) as [B1 B2]. pose proof (Hmine b Hb) as [Ib [Tb _]].
  destruct (rt_spec' info procs irq rel comp res tr RT a Ha) as [t [q [N1 _]]]. pose proof (wfr_id info tsk W Htsk) as N2.
  unfold rcluster in C. rewrite N1 in C. apply (overlap_cpu info procs irq rel comp res tr RT a b t tsk Ha Ib B1 B2 N1); [rewrite Tb; exact N2|exact C].
Qed.

Lemma blockers_per_cluster b c p : In b mine -> (forall a, p a = true -> rclu a = c) -> (length (filter (fun a => tblocks a b && p a) tr) <= N.to_nat (parallel procs irq (ti_cluster tsk) c))%nat.
Proof.
  intros Hb Hp. pose proof (proj1 (Hmine b Hb)) as Ib. set (M := filter _ tr).
  assert (MI : forall a, In a M -> In a tr /\ tblocks a b = true /\ rclu a = c).
  { intros a Ha. apply filter_In in Ha. destruct Ha as [Ia Ha]. apply andb_true_iff in Ha. destruct Ha as [P Q]. auto. }
  assert (ND : NoDup (map (fun a => cr_cpu (fst a)) M)).
  { apply (tcluster_occupied M (cr_issue (fst b)) c); [apply fop_filter; apply (rt_nonpreemptive _ _ _ _ _ _ _ RT)|].
    intros a Ha. destruct (MI a Ha) as [Ia [Wa Ca]]. pose proof (tblocks_pending a b Ia Ib Wa). repeat split; auto; lia. }
  assert (L : (N.of_nat (length (map (fun a => cr_cpu (fst a)) M)) <= parallel procs irq (ti_cluster tsk) c)%N).
  { unfold parallel. destruct (Nat.eqb_spec (ti_cluster tsk) c) as [E|E].
    - apply (nodup_lt_length_avoid _ _ (cr_cpu (fst b)) ND).
      + intros x Hx. apply in_map_iff in Hx. destruct Hx as [a [<- Ha]]. destruct (MI a Ha) as [Ia [Wa Ca]]. split; [rewrite <- Ca; apply tcpu_lt; exact Ia|]. apply town_cpu; auto. congruence.
      + rewrite <- E, <- (tmine_cluster b Hb). apply tcpu_lt. exact Ib.
    - apply (nodup_lt_length _ _ ND). intros x Hx. apply in_map_iff in Hx. destruct Hx as [a [<- Ha]]. destruct (MI a Ha) as [Ia [Wa Ca]]. rewrite <- Ca. apply tcpu_lt. exact Ia. }
  rewrite map_length in L. lia.
Qed.

Lemma blockers_per_task b i p : In b mine -> (forall a, p a = true -> rtask a = i) -> (length (filter (fun a => tblocks a b && p a) tr) <= 1)%nat.
Proof.
  intros Hb Hp. pose proof (proj1 (Hmine b Hb)) as Ib. set (M := filter _ tr).
  assert (MI : forall a, In a M -> In a tr /\ tblocks a b = true /\ rtask a = i).
  { intros a Ha. apply filter_In in Ha. destruct Ha as [Ia Ha]. apply andb_true_iff in Ha. destruct Ha as [P Q]. auto. }
  assert (F : ForallOrdPairs (fun a a' : rwreq => False) M).
  { pose proof (fop_filter _ (fun a => tblocks a b && p a) tr (rt_sequential _ _ _ _ _ _ _ RT)) as F. fold M in F. revert F. apply fop_impl_in.
    intros a a' Ha Ha' F. destruct (MI a Ha) as [Ia [Wa Ta]]. destruct (MI a' Ha') as [Ia' [Wa' Ta']]. pose proof (tblocks_pending a b Ia Ib Wa). pose proof (tblocks_pending a' b Ia' Ib Wa').
    unfold rtask in Ta, Ta'. specialize (F ltac:(congruence)). unfold apart in F. lia. }
  destruct M as [|a [|a' M']]; cbn [length]; [lia|lia|]. inversion F as [|u v X _]; subst. rewrite Forall_forall in X. destruct (X a' (or_introl eq_refl)).
Qed.

Lemma tblk_disjoint : ForallOrdPairs (fun b b' => forall a, In a tr -> negb (snd a) = true -> tblocks a b = true -> tblocks a b' = true -> False) mine.
Proof.
  eapply fop_impl_in; [|exact Hapart]. intros b b' Hb Hb' AP a Ha _ B1 B2. apply Hmine in Hb, Hb'. destruct Hb as [Ib _], Hb' as [Ib' _].
  pose proof (tblocks_pending a b Ha Ib B1). pose proof (tblocks_pending a b' Ha Ib' B2). pose proof (times b Ib). pose proof (times b' Ib'). cbv beta in AP. unfold apart in AP. lia.
Qed.

Definition ntw (b : rwreq) : nat := length (filter (fun a => tblocks a b && negb (snd a)) tr).

Lemma ntw_eq b : ntw b = length (filter (fun a => wblk a b) tr).
Proof.
  unfold ntw. f_equal. apply filter_ext_in. intros a _. unfold tblocks. destruct (lblk a b) eqn:R; [|rewrite orb_false_r; unfold wblk; destruct (snd a); cbn; [reflexivity|rewrite andb_true_r; reflexivity]].
  pose proof (lblk_read a b R) as S. unfold wblk. rewrite S. cbn. reflexivity.
Qed.

Lemma reader_phases b : (length (filter (fun a => tblocks a b && snd a) tr) <= ntw b + (if snd b then 0 else 1))%nat.
Proof.
  assert (E : (length (filter (fun a => tblocks a b && snd a) tr) <= length (filter (fun a => existsb (fun w => lead w a) (wset b)) tr))%nat).
  { apply filter_sub. intros a _ X. apply andb_true_iff in X. destruct X as [X1 X2]. apply orb_true_iff in X1. destruct X1 as [X1|X1]; [apply wblk_spec in X1; destruct X1 as [X1 _]; congruence|]. apply andb_true_iff in X1. apply X1. }
  etransitivity; [exact E|]. etransitivity; [apply (filter_exists_count lead (wset b) tr); intros x _; apply lead_unique|].
  assert (L : forall (f : rwreq -> bool) l, (length (filter f l) <= length l)%nat) by (intros f l; induction l as [|x l IH]; [cbn; lia|]; cbn; destruct (f x); cbn; lia).
  etransitivity; [apply L|]. unfold wset. rewrite app_length, ntw_eq. destruct (snd b); cbn [length]; lia.
Qed.

(** ** The bounds *)
Notation hitl := (rhit tr mine tblocks).

Lemma ones_sum (l : list rwreq) : nsum (map (fun _ : rwreq => 1%nat) l) = length l.
Proof. induction l as [|b l IH]; [reflexivity|]; cbn [map nsum fold_right length]; unfold nsum in IH; lia. Qed.
Lemma const_sum (l : list rwreq) x : nsum (map (fun _ : rwreq => x) l) = (length l * x)%nat.
Proof. induction l as [|b l IH]; [reflexivity|]; cbn [map nsum fold_right length]; unfold nsum in IH; lia. Qed.

Lemma tf_writers_bound issued : (length mine <= N.to_nat issued)%nat ->
  zsum (map rdur (filter (fun a : rwreq => negb (snd a)) hitl)) <= Z.of_N (i_len (np_fifo_per_resource tsk (cluster_writes info) procs res issued irq)) /\
  (N.of_nat (length (filter (fun a : rwreq => negb (snd a)) hitl)) <= i_count (np_fifo_per_resource tsk (cluster_writes info) procs res issued irq))%N.
Proof.
  intros HI. rewrite np_fifo_writes; cbn [i_len i_count].
  assert (IN : forall a, In a (filter (fun a : rwreq => negb (snd a)) hitl) -> (rclu a < num_clusters info)%nat).
  { intros a Ha. apply filter_In in Ha. destruct Ha as [Ha _]. apply rhit_in in Ha. apply (rcluster_lt info procs irq rel comp res tr RT). apply Ha. }
  rewrite (zsum_partition' rdur rclu _ (num_clusters info) IN). rewrite (length_partition rclu _ (num_clusters info) IN).
  assert (C : forall c, zsum (map rdur (filter (fun a => Nat.eqb (rclu a) c) (filter (fun a : rwreq => negb (snd a)) hitl))) <= Z.of_N (i_len (bound_blocking (wcont info c res) (ti_response tsk) (issued * parallel procs irq (ti_cluster tsk) c) issued (ti_id tsk) 0)) /\
    (N.of_nat (length (filter (fun a => Nat.eqb (rclu a) c) (filter (fun a : rwreq => negb (snd a)) hitl))) <= i_count (bound_blocking (wcont info c res) (ti_response tsk) (issued * parallel procs irq (ti_cluster tsk) c) issued (ti_id tsk) 0))%N).
  { intros c. rewrite filter_filter. set (p := fun a : rwreq => negb (snd a) && Nat.eqb (rclu a) c).
    rewrite (rsel_total info procs irq rel comp res tr RT mine tblocks p). rewrite <- (rsel_length tr mine tblocks p).
    destruct (writers_cluster info procs irq rel comp res tr W SJ RT tsk k Htsk mine Hmine tblocks tblocks_facts c (issued * parallel procs irq (ti_cluster tsk) c)%N issued p) as [A B].
    - intros a Pa. unfold p in Pa. apply andb_true_iff in Pa. destruct Pa as [P1 P2]. apply negb_true_iff in P1. apply Nat.eqb_eq in P2. auto.
    - pose proof (rhit_count tr mine tblocks p (fun _ => N.to_nat (parallel procs irq (ti_cluster tsk) c))) as R. etransitivity; [apply R|].
      + intros b Hb. apply (blockers_per_cluster b c p Hb). intros a Pa. unfold p in Pa. apply andb_true_iff in Pa. apply Nat.eqb_eq. apply Pa.
      + rewrite const_sum, N2Nat.inj_mul. nia.
    - intros i. pose proof (rhit_count tr mine tblocks (fun a => p a && Nat.eqb (rtask a) i) (fun _ => 1%nat)) as R. etransitivity; [apply R|].
      + intros b Hb. apply (blockers_per_task b i _ Hb). intros a Pa. apply andb_true_iff in Pa. apply Nat.eqb_eq. apply Pa.
      + rewrite ones_sum. exact HI.
    - split; [lia|exact B]. }
  clear IN. split; generalize (seq 0 (num_clusters info)); induction l as [|c s IH]; try (cbn; lia); cbn [map]; destruct (C c) as [C1 C2].
  - rewrite zsum_cons. unfold sumN in *. cbn [fold_right]. lia.
  - unfold sumN, nsum in *. cbn [fold_right]. lia.
Qed.

Lemma parallel_le own c : (parallel procs irq own c <= if Nat.eqb c own then procs - 1 else procs)%N.
Proof. unfold parallel, available. rewrite (Nat.eqb_sym c own). destruct (Nat.eqb own c); destruct irq as [i|]; try destruct (Nat.eqb i c); lia. Qed.

Lemma tf_readers_bound nw nr wcount : (length (filter (fun b : rwreq => negb (snd b)) mine) <= N.to_nat nw)%nat -> (length (filter (fun b : rwreq => snd b) mine) <= N.to_nat nr)%nat ->
  (N.of_nat (length (filter (fun a : rwreq => negb (snd a)) hitl)) <= wcount)%N ->
  zsum (map rdur (filter (fun a : rwreq => snd a) hitl)) <= Z.of_N (i_len (tf_reader_all tsk (all_reads_of info) nw wcount nr res procs)).
Proof.
  intros Hnw Hnr Hwc. rewrite (rsel_total info procs irq rel comp res tr RT mine tblocks (fun a : rwreq => snd a)). apply N2Z.inj_le. unfold tf_reader_all. rewrite all_reads_nth.
  pose proof (type_split mine) as LM.
  assert (PH : (length (filter (fun a : rwreq => snd a) hitl) <= N.to_nat (wcount + nw))%nat).
  { pose proof (rhit_count tr mine tblocks (fun a : rwreq => snd a) (fun b => ntw b + (if snd b then 0 else 1))%nat) as R. etransitivity; [apply R; intros b _; apply reader_phases|].
    rewrite nsum_add, nsum_type. pose proof (rhit_disjoint tr mine tblocks (fun a : rwreq => negb (snd a)) tblk_disjoint) as DJ. unfold ntw. lia. }
  apply (bba_task_safe (fun i => match nth_error info i with Some t => ti_cluster t | None => 0%nat end)).
  - apply rcont_nodup, W.
  - apply rcont_sorted.
  - intros r Hr. apply in_rcont in Hr. destruct Hr as [R1 _]. unfold tkey. rewrite (wfr_id info _ W R1). reflexivity.
  - intros i l Hin. unfold rsel in Hin. apply in_map_iff in Hin. destruct Hin as [a [E Ha]]. injection E as <- <-. apply filter_In in Ha. destruct Ha as [Ha Sa].
    destruct (rhit_facts info procs irq rel comp res tr SJ RT tsk k Htsk mine Hmine tblocks tblocks_facts a Ha) as [A1 [A2 _]].
    destruct (rt_spec' info procs irq rel comp res tr RT a A1) as [t [q [N1 [N2 [N3 [N4 N5]]]]]].
    destruct (wfr_nth info _ t W N1) as [E1 E2]. exists (RB t q). split; [apply in_rcont; cbn; rewrite N4; auto|]. split; [exact E1|]. split; [exact A2|unfold rb_len; cbn; lia].
  - intros r Hr. apply in_rcont in Hr. destruct Hr as [R1 [R3 [R4 R5]]]. destruct r as [t x]. cbn in *.
    apply (rsel_fits info procs irq rel comp res tr W SJ RT tsk k Htsk mine Hmine tblocks tblocks_facts (fun a : rwreq => snd a) true t x); auto.
  - intros i. rewrite rsel_occ. assert (S1 : (length (filter (fun a : rwreq => snd a && Nat.eqb (rtask a) i) hitl) <= length (filter (fun a : rwreq => snd a) hitl))%nat).
    { apply filter_sub. intros a _ X. apply andb_true_iff in X. apply X. }
    assert (S2 : (length (filter (fun a : rwreq => snd a && Nat.eqb (rtask a) i) hitl) <= length mine)%nat); [|lia].
    pose proof (rhit_count tr mine tblocks (fun a : rwreq => snd a && Nat.eqb (rtask a) i) (fun _ => 1%nat)) as R. etransitivity; [apply R|rewrite ones_sum; lia].
    intros b Hb. apply (blockers_per_task b i _ Hb). intros a Pa. apply andb_true_iff in Pa. apply Nat.eqb_eq. apply Pa.
  - intros c. unfold cnt, rsel. rewrite filter_map, map_length. cbn [fst]. rewrite filter_filter.
    assert (S : (length (filter (fun x : rwreq => snd x && Nat.eqb match nth_error info (rtask x) with Some t => ti_cluster t | None => 0 end c) hitl) <= length mine * N.to_nat (parallel procs irq (ti_cluster tsk) c))%nat).
    { rewrite <- const_sum. apply rhit_count. intros b Hb. apply (blockers_per_cluster b c _ Hb). intros a Pa. apply andb_true_iff in Pa. apply Nat.eqb_eq. apply Pa. }
    pose proof (parallel_le (ti_cluster tsk) c) as PL. destruct (Nat.eqb c (ti_cluster tsk)); nia.
  - rewrite rsel_length. lia.
Qed.

Theorem tf_bound nw nr issued issued' : (length (filter (fun b : rwreq => negb (snd b)) mine) <= N.to_nat nw)%nat -> (length (filter (fun b : rwreq => snd b) mine) <= N.to_nat nr)%nat ->
  (length mine <= N.to_nat issued)%nat -> (length mine <= N.to_nat issued')%nat ->
  zsum (map (fun b => cr_start (fst b) - cr_issue (fst b)) mine) <=
  Z.of_N (i_len (np_fifo_per_resource tsk (cluster_writes info) procs res issued irq) +
    i_len (tf_reader_all tsk (all_reads_of info) nw (i_count (np_fifo_per_resource tsk (cluster_writes info) procs res issued' irq)) nr res procs)).
Proof.
  intros Hnw Hnr HI HI'. etransitivity; [apply (rhit_time info procs irq rel comp res tr RT tsk k mine Hmine Hapart tblocks tf_cover)|].
  rewrite zsum_types. pose proof (proj1 (tf_writers_bound issued HI)). pose proof (tf_readers_bound nw nr _ Hnw Hnr (proj2 (tf_writers_bound issued' HI'))). lia.
Qed.

(** ** The mutex bound *)
Variable info_mtx : list taskinfo.
Hypothesis Hmtx : Forall2 mutex_cover info info_mtx.
Hypothesis Wm : wf_info info_mtx.

Lemma mtx_nth i t : nth_error info i = Some t -> exists m, nth_error info_mtx i = Some m /\ mutex_cover t m.
Proof.
  clear - Hmtx. revert i. induction Hmtx as [|x y l l' H F IH]; intros i Hi; [destruct i; discriminate|]. destruct i as [|i]; cbn in *; [injection Hi as <-; exists y; auto|]. apply (IH F i Hi).
Qed.

Lemma mtx_in m : In m info_mtx -> exists t, In t info /\ mutex_cover t m.
Proof.
  clear - Hmtx. induction Hmtx as [|x y l l' H F IH]; intros Hm; [destruct Hm|]. destruct Hm as [<-|Hm]; [exists x; split; [left; reflexivity|exact H]|].
  destruct (IH F Hm) as [t [A B]]. exists t. split; [right; exact A|exact B].
Qed.

(** the number of requests of a job *)
Lemma job_requests t j : In t info -> (length (filter (fun a => is_job (ti_id t) j (fst a)) tr) <= N.to_nat (num_requests t res))%nat.
Proof.
  intros Ht. pose proof (wfr_id info t W Ht) as N0.
  assert (G : forall (l : list rwreq) qs, NoDup (map (fun q => (q_res q, q_read q)) qs) ->
    (forall a, In a l -> exists q, In q qs /\ q_res q = res /\ q_read q = snd a) ->
    (forall q, In q qs -> q_res q = res -> (length (filter (fun a => Bool.eqb (snd a) (q_read q)) l) <= N.to_nat (q_num q))%nat) ->
    (length l <= N.to_nat (fold_right (fun q s => if Nat.eqb (q_res q) res then (q_num q + s)%N else s) 0%N qs))%nat).
  { intros l qs. revert l. induction qs as [|q qs IH]; intros l ND HS HN.
    - destruct l as [|a l]; [cbn; lia|]. destruct (HS a (or_introl eq_refl)) as [q [[] _]].
    - cbn [map] in ND. inversion ND as [|x y NI ND']; subst. cbn [fold_right]. destruct (Nat.eqb_spec (q_res q) res) as [E|E].
      + pose proof (HN q (or_introl eq_refl) E) as H0.
        assert (HX : (length (filter (fun a : rwreq => negb (Bool.eqb (snd a) (q_read q))) l) <= N.to_nat (fold_right (fun q s => if Nat.eqb (q_res q) res then (q_num q + s)%N else s) 0%N qs))%nat).
        { apply (IH (filter (fun a => negb (Bool.eqb (snd a) (q_read q))) l)).
          - exact ND'.
          - intros a Ha. apply filter_In in Ha. destruct Ha as [Ha Na]. destruct (HS a Ha) as [q' [[<-|Hq] [R1 R2]]]; [rewrite R2, eqb_reflx in Na; discriminate|]. exists q'. auto.
          - intros q' Hq' R. etransitivity; [|apply (HN q' (or_intror Hq') R)]. rewrite filter_filter. apply filter_sub. intros a _ X. apply andb_true_iff in X. apply X. }
        assert (S : length l = (length (filter (fun a : rwreq => Bool.eqb (snd a) (q_read q)) l) + length (filter (fun a : rwreq => negb (Bool.eqb (snd a) (q_read q))) l))%nat).
        { clear. induction l as [|a l IH]; [reflexivity|]. cbn [filter]. destruct (Bool.eqb (snd a) (q_read q)); cbn [negb length]; lia. }
        lia.
      + apply IH; [exact ND'| |intros q' Hq' R; apply HN; [right; exact Hq'|exact R]].
        intros a Ha. destruct (HS a Ha) as [q' [[<-|Hq] [R1 R2]]]; [congruence|]. exists q'. auto. }
  unfold num_requests. apply G.
  - apply W. exact Ht.
  - intros a Ha. apply filter_In in Ha. destruct Ha as [Ia Ja]. unfold is_job in Ja. apply andb_true_iff in Ja. destruct Ja as [Ja _]. apply Nat.eqb_eq in Ja.
    destruct (rt_spec' info procs irq rel comp res tr RT a Ia) as [t' [q [N1 [N2 [N3 [N4 _]]]]]]. unfold rtask in N1. rewrite Ja, N0 in N1. injection N1 as <-. exists q. auto.
  - intros q Hq R. rewrite filter_filter. pose proof (rt_number _ _ _ _ _ _ _ RT (ti_id t) j t q N0 Hq R). lia.
Qed.

Lemma mtx_cluster_bound c issued : (length mine <= N.to_nat issued)%nat ->
  zsum (map rdur (filter (fun a => Nat.eqb (rclu a) c) hitl)) <= Z.of_N (i_len (bound_blocking (contention info_mtx c res) (ti_response tsk) (issued * parallel procs irq (ti_cluster tsk) c) issued (ti_id tsk) 0)).
Proof.
  intros HI. set (p := fun a : rwreq => Nat.eqb (rclu a) c). rewrite (rsel_total info procs irq rel comp res tr RT mine tblocks p). apply N2Z.inj_le. unfold bound_blocking.
  assert (Hp : forall a, p a = true -> rclu a = c) by (intros a; apply Nat.eqb_eq).
  apply cont_safe.
  - apply contention_nodup. exact Wm.
  - apply contention_sorted.
  - intros i l Hin. unfold rsel in Hin. apply in_map_iff in Hin. destruct Hin as [a [E Ha]]. injection E as <- <-. apply filter_In in Ha. destruct Ha as [Ha Pa]. apply Hp in Pa.
    destruct (rhit_facts info procs irq rel comp res tr SJ RT tsk k Htsk mine Hmine tblocks tblocks_facts a Ha) as [A1 [A2 _]].
    destruct (rt_spec' info procs irq rel comp res tr RT a A1) as [t [q [N1 [N2 [N3 [N4 N5]]]]]]. destruct (wfr_nth info _ t W N1) as [E1 E2].
    destruct (mtx_nth _ _ N1) as [m [M1 [C1 [C2 [C3 [C4 C5]]]]]]. destruct (C5 q N2) as [x [X1 [X2 [X3 X4]]]].
    unfold rcluster in Pa. rewrite N1 in Pa.
    exists (RB m x). split; [apply in_contention; cbn; repeat split; [eapply nth_error_In; exact M1|congruence|exact X1|congruence]|]. split; [unfold tkey; cbn; congruence|]. split; [|unfold rb_len; cbn; lia].
    cbn. rewrite prio_excl. apply Nat.eqb_neq. congruence.
  - intros r Hr. apply in_contention in Hr. destruct Hr as [R1 [R2 [R3 R4]]]. destruct r as [m x]. unfold tkey. cbn in *. destruct (mtx_in m R1) as [t [It [C1 [C2 [C3 [C4 C5]]]]]].
    unfold get_max_num_requests; cbn [rb_task rb_req]. rewrite rsel_occ, C1.
    replace (get_max_num_jobs m (ti_response tsk)) with (get_max_num_jobs t (ti_response tsk)) by (unfold get_max_num_jobs; rewrite C3, C4; reflexivity).
    destruct (filter (fun a => p a && Nat.eqb (rtask a) (ti_id t)) hitl) as [|a0 l0] eqn:EF; [cbn; lia|]. rewrite <- EF.
    assert (HX : (num_requests t res <= q_num x)%N).
    { assert (I0 : In a0 (filter (fun a => p a && Nat.eqb (rtask a) (ti_id t)) hitl)) by (rewrite EF; left; reflexivity). apply filter_In in I0. destruct I0 as [I0 P0]. apply andb_true_iff in P0. destruct P0 as [_ P0]. apply Nat.eqb_eq in P0.
      apply rhit_in in I0. destruct I0 as [I0 _]. destruct (rt_spec' info procs irq rel comp res tr RT a0 I0) as [t' [q [N1 [N2 [N3 _]]]]]. rewrite P0, (wfr_id info t W It) in N1. injection N1 as <-.
      destruct (C5 q N2) as [x' [X1 [X2 [X3 X4]]]]. rewrite N3 in X4, X2. assert (E : x' = x); [|rewrite <- E; exact X4].
      destruct Wm as [_ Wm2]. pose proof (proj2 (Wm2 m R1)) as ND. apply (nodup_key q_res (ti_requests m)); auto. congruence. }
    etransitivity; [apply (rhit_jobs info procs irq rel comp res tr W SJ RT tsk k Htsk mine Hmine tblocks tblocks_facts t p (num_requests t res) It)|].
    + intros j. etransitivity; [|apply (job_requests t j It)]. apply filter_sub. intros a _ X. apply andb_true_iff in X. apply X.
    + nia.
  - intros i. rewrite rsel_occ. pose proof (rhit_count tr mine tblocks (fun a : rwreq => p a && Nat.eqb (rtask a) i) (fun _ => 1%nat)) as R. rewrite ones_sum in R.
    assert (R2 : (length (filter (fun a : rwreq => p a && Nat.eqb (rtask a) i) hitl) <= length mine)%nat); [|lia]. apply R.
    intros b Hb. apply (blockers_per_task b i _ Hb). intros a Pa. apply andb_true_iff in Pa. apply Nat.eqb_eq. apply Pa.
  - rewrite rsel_length. assert (R : (length (filter p hitl) <= length mine * N.to_nat (parallel procs irq (ti_cluster tsk) c))%nat); [|nia].
    rewrite <- const_sum. apply rhit_count. intros b Hb. apply (blockers_per_cluster b c p Hb Hp).
Qed.

Theorem tf_mutex_bound issued : (length mine <= N.to_nat issued)%nat ->
  zsum (map (fun b => cr_start (fst b) - cr_issue (fst b)) mine) <= Z.of_N (i_len (np_fifo_per_resource tsk (cluster_contention info_mtx) procs res issued irq)).
Proof.
  intros HI. etransitivity; [apply (rhit_time info procs irq rel comp res tr RT tsk k mine Hmine Hapart tblocks tf_cover)|].
  rewrite np_fifo_eq; cbn [i_len].
  assert (IN : forall a, In a hitl -> (rclu a < num_clusters info_mtx)%nat).
  { intros a Ha. apply rhit_in in Ha. destruct Ha as [Ia _]. destruct (rt_spec' info procs irq rel comp res tr RT a Ia) as [t [q [N1 _]]]. destruct (mtx_nth _ _ N1) as [m [M1 [C1 [C2 _]]]].
    unfold rcluster. rewrite N1, <- C2. apply cluster_lt. eapply nth_error_In; exact M1. }
  rewrite (zsum_partition' rdur rclu _ (num_clusters info_mtx) IN). clear IN. generalize (seq 0 (num_clusters info_mtx)); induction l as [|c s IH]; [cbn; lia|]; cbn [map].
  rewrite zsum_cons, climit_parallel. pose proof (mtx_cluster_bound c issued HI). unfold sumN in *. cbn [fold_right]. lia.
Qed.
End TF.
