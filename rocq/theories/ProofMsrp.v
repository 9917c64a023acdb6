(** Soundness of the holistic MSRP bounds. *)
From Coq Require Import NArith ZArith List Bool Lia Arith.
From Verif Require Import ModelLocking SpecLocking ProofLocking ProofSpin ProofLockingMono.
Import ListNotations.
Open Scope N_scope.

Definition as_write (q : reqspec) : reqspec := Req (q_res q) (q_num q) (q_len q) false.
Definition part (locals : list nat) (want : bool) (t : taskinfo) : taskinfo :=
  TI (ti_id t) (ti_prio t) (ti_period t) (ti_period t) (ti_response t) (ti_cluster t) 0
     (map as_write (filter (fun q => Bool.eqb (existsb (Nat.eqb (q_res q)) locals) want) (ti_requests t))).

Lemma extract_map info locals want : extract_resources info locals want = map (part locals want) info.
Proof. reflexivity. Qed.

Lemma part_requests locals want t q' : In q' (ti_requests (part locals want t)) <-> exists q, In q (ti_requests t) /\ (want = true <-> In (q_res q) locals) /\ q' = as_write q.
Proof.
  cbn [part ti_requests]. rewrite in_map_iff.
  assert (E : forall q, Bool.eqb (existsb (Nat.eqb (q_res q)) locals) want = true <-> (want = true <-> In (q_res q) locals)).
  { intros q. rewrite Bool.eqb_true_iff. assert (X : existsb (Nat.eqb (q_res q)) locals = true <-> In (q_res q) locals).
    { rewrite existsb_exists. split; [intros [y [Y1 Y2]]; apply Nat.eqb_eq in Y2; congruence|intros Y; exists (q_res q); split; [exact Y|apply Nat.eqb_refl]]. }
    rewrite <- X. destruct (existsb (Nat.eqb (q_res q)) locals), want; intuition congruence. }
  split.
  - intros [q [<- H]]. apply filter_In in H. exists q. split; [apply H|]. split; [apply E; apply H|reflexivity].
  - intros [q [H1 [H2 ->]]]. exists q. split; [reflexivity|]. apply filter_In. split; [exact H1|apply E; exact H2].
Qed.

Lemma extract_spec info locals want i t : nth_error info i = Some t -> exists u, nth_error (extract_resources info locals want) i = Some u /\
  ti_id u = ti_id t /\ ti_prio u = ti_prio t /\ ti_period u = ti_period t /\ ti_response u = ti_response t /\ ti_cluster u = ti_cluster t /\
  forall q', In q' (ti_requests u) <-> exists q, In q (ti_requests t) /\ (want = true <-> In (q_res q) locals) /\ q' = Req (q_res q) (q_num q) (q_len q) false.
Proof.
  intros H. exists (part locals want t). split; [rewrite extract_map; apply map_nth_error; exact H|]. repeat (split; [reflexivity|]). intros q'. apply part_requests.
Qed.

Lemma wf_extract info locals want : wf_info info -> wf_info (extract_resources info locals want).
Proof.
  intros [W1 W2]. rewrite extract_map. split.
  - rewrite map_map, map_length. cbn [part ti_id]. exact W1.
  - intros t Ht. apply in_map_iff in Ht. destruct Ht as [u [<- Hu]]. destruct (W2 u Hu) as [P ND]. split; [exact P|]. cbn [part ti_requests]. rewrite map_map. cbn [as_write q_res]. apply nodup_filter_map. exact ND.
Qed.

Lemma extract_nth info locals want i u : nth_error (extract_resources info locals want) i = Some u -> exists t, nth_error info i = Some t /\ u = part locals want t.
Proof.
  rewrite extract_map. intros H. destruct (nth_error info i) as [t|] eqn:E.
  - rewrite (map_nth_error _ _ _ E) in H. injection H as <-. exists t. auto.
  - exfalso. apply nth_error_None in E. assert (i < length (map (part locals want) info))%nat by (apply nth_error_Some; congruence). rewrite map_length in *. lia.
Qed.

Lemma fifo_extract info procs irq rel comp r tr locals : ~ In r locals -> fifo_execution info procs irq rel comp r tr -> fifo_execution (extract_resources info locals false) procs irq rel comp r tr.
Proof.
  intros NL [H1 H2 H3 H4 H5 H6 H7 H8 H9]. constructor; auto.
  - intros c Hc. destruct (H4 c Hc) as [t [q [N1 [N2 [N3 N4]]]]]. exists (part locals false t), (as_write q). split; [rewrite extract_map; apply map_nth_error; exact N1|].
    split; [|split; [exact N3|exact N4]]. apply part_requests. exists q. split; [exact N2|]. split; [|reflexivity]. rewrite N3. split; [discriminate|contradiction].
  - intros i k t q' N1 N2 N3. destruct (extract_nth _ _ _ _ _ N1) as [u [U1 ->]]. apply part_requests in N2. destruct N2 as [q [Q1 [_ ->]]]. apply (H5 i k u q U1 Q1). exact N3.
  - intros c t Hc N1. destruct (extract_nth _ _ _ _ _ N1) as [u [U1 ->]]. apply (H7 c u Hc U1).
  - revert H8. apply fop_impl_in. intros a b _ _ P t u N1 N2. destruct (extract_nth _ _ _ _ _ N1) as [t' [T1 ->]]. destruct (extract_nth _ _ _ _ _ N2) as [u' [U1 ->]]. apply (P t' u' T1 U1).
Qed.

Lemma can_block_extract info locals tsk low q : In (q_res q) locals -> can_block info tsk low q ->
  can_block (extract_resources info locals true) (part locals true tsk) (part locals true low) (as_write q).
Proof.
  intros HL [H1 [H2 [H3 [H4 [H5 [u [x [U1 [U2 [U3 U4]]]]]]]]]]. unfold can_block. split; [rewrite extract_map; apply in_map; exact H1|].
  split; [exact H2|]. split; [exact H3|]. split; [exact H4|]. split; [apply part_requests; exists q; split; [exact H5|]; split; [tauto|reflexivity]|].
  exists (part locals true u), (as_write x). split; [rewrite extract_map; apply in_map; exact U1|]. split; [apply part_requests; exists x; split; [exact U2|]; split; [rewrite U3; tauto|reflexivity]|].
  split; [exact U3|exact U4].
Qed.

Open Scope Z_scope.

Lemma fop_total_spin_ext i k (tr tr' : nat -> list creq) rs : (forall r, In r rs -> tr r = tr' r) -> total_spin i k tr rs = total_spin i k tr' rs.
Proof. intros H. unfold total_spin. f_equal. apply map_ext_in. intros r Hr. rewrite (H r Hr). reflexivity. Qed.

Section MSRP.
Variables (info : list taskinfo) (irq : option nat) (rel comp : nat -> nat -> Z) (tr : nat -> list creq).
Variable W : wf_info info.
Variable SJ : forall t, In t info -> sporadic_jobs (ti_period t) (ti_response t) (rel (ti_id t)) (comp (ti_id t)).
Let locals := get_local_resources info.
Variable FE : forall r, ~ In r locals -> fifo_execution info 1 irq rel comp r (tr r).
Let G := extract_resources info locals false.

Definition gtr (r : nat) : list creq := if existsb (Nat.eqb r) locals then [] else tr r.

Lemma locals_dec r : existsb (Nat.eqb r) locals = true <-> In r locals.
Proof. rewrite existsb_exists. split; [intros [y [Y1 Y2]]; apply Nat.eqb_eq in Y2; congruence|intros Y; exists r; split; [exact Y|apply Nat.eqb_refl]]. Qed.

Lemma gtr_ok r : fifo_execution G 1 irq rel comp r (gtr r).
Proof.
  unfold gtr. destruct (existsb (Nat.eqb r) locals) eqn:E.
  - constructor.
    + intros c [].
    + constructor.
    + intros pre b post X. destruct pre; discriminate.
    + intros c [].
    + intros; cbn; lia.
    + intros c [].
    + intros c t [].
    + constructor.
    + constructor.
  - assert (NL : ~ In r locals) by (rewrite <- locals_dec; congruence). apply fifo_extract; [exact NL|]. apply FE. exact NL.
Qed.

Lemma gsj t : In t G -> sporadic_jobs (ti_period t) (ti_response t) (rel (ti_id t)) (comp (ti_id t)).
Proof. unfold G. rewrite extract_map. intros H. apply in_map_iff in H. destruct H as [u [<- Hu]]. apply (SJ u Hu). Qed.

Lemma gtr_global r : ~ In r locals -> gtr r = tr r.
Proof. intros H. unfold gtr. destruct (existsb (Nat.eqb r) locals) eqn:E; [|reflexivity]. exfalso. apply H. apply locals_dec. exact E. Qed.

Lemma msrp_safe i tsk k rs : nth_error info i = Some tsk -> NoDup rs -> (forall r, In r rs -> ~ In r locals) ->
  exists b, nth_error (msrp_bounds_holistic info irq) i = Some b /\
  total_spin i k tr rs <= Z.of_N (i_len (bb_remote b)) /\
  (forall low r c, In low info -> ti_id low <> i -> ti_cluster low = ti_cluster tsk -> (ti_prio tsk <= ti_prio low)%N -> ~ In r locals -> In c (tr r) -> cr_task c = ti_id low ->
     cr_end c - cr_issue c <= Z.of_N (i_len (bb_arrival b))) /\
  (forall low q, (ti_prio tsk < 4294967295)%N -> can_block info tsk low q -> In (q_res q) locals -> (q_len q <= i_len (bb_arrival b))%N) /\
  i_len (bb_block b) = (i_len (bb_remote b) + i_len (bb_arrival b))%N.
Proof.
  intros Hi ND HR. destruct (msrp_result info irq i tsk Hi) as [b [gt [lt [B1 [HG [HL [B2 [B3 B4]]]]]]]].
  fold locals in HG, HL, B2, B3, B4. fold G in HG, B2, B3, B4. exists b. split; [exact B1|].
  assert (WG : wf_info G) by (apply wf_extract; exact W). destruct (wf_nth G i gt WG HG) as [EG IG]. destruct (wf_nth info i tsk W Hi) as [ET IT].
  destruct (extract_nth _ _ _ _ _ HG) as [t1 [T1 Egt]]. rewrite Hi in T1. injection T1 as <-. destruct (extract_nth _ _ _ _ _ HL) as [t2 [T2 Elt]]. rewrite Hi in T2. injection T2 as <-.
  split; [|split; [|split]].
  - rewrite B2. rewrite (fop_total_spin_ext i k tr gtr rs) by (intros r Hr; symmetry; apply gtr_global; apply HR; exact Hr). rewrite <- EG. apply (total_spin_safe G 1 irq rel comp gtr gt k rs WG gsj gtr_ok IG ND).
  - intros low r c Hl NE Ec Pr NL Hc El. rewrite B3. etransitivity; [|apply N2Z.inj_le, N.le_max_l].
    apply (arrival_safe G 1 irq rel comp r (gtr r) gt (part locals false low) c WG gsj (gtr_ok r) IG).
    + unfold G. rewrite extract_map. apply in_map. exact Hl.
    + cbn [part ti_id]. rewrite EG. exact NE.
    + subst gt. exact Ec.
    + subst gt. exact Pr.
    + rewrite gtr_global by exact NL. exact Hc.
    + exact El.
  - intros low q PM CB HLq. rewrite B3. etransitivity; [|apply N.le_max_r]. subst lt.
    apply (proj1 (pcp_spec (extract_resources info locals true) (part locals true tsk) PM) (part locals true low) (as_write q)). apply can_block_extract; assumption.
  - rewrite B4, B2, B3. reflexivity.
Qed.
End MSRP.
