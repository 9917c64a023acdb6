(** Executions of the global priority inheritance protocol. *)
From Coq Require Import NArith ZArith List Bool Lia Arith.
From Verif Require Import Base ModelLocking ModelPIP SpecLocking SpecQueue SpecDPCP SpecFMLPPlus SpecPIP ProofLocking ProofSpin ProofQueue ProofBlame ProofLockingMono ProofGlobal ProofMSRP ProofPIP.
Import ListNotations.
Import Base.
Open Scope Z_scope.

Section Exec.
Context (info : list taskinfo) (m : nat) (rel comp : nat -> nat -> Z) (sched : Z -> list (nat * nat)) (tr : nat -> list creq) (e : Z).
Hypothesis WF : wf_info info.
Hypothesis PP : pip_params info.
Hypothesis EX : pip_execution info m rel comp sched tr.
Hypothesis OT : on_time info rel comp e.
Let LR := px_requests _ _ _ _ _ _ EX.

Lemma executes_iff i k t : executes sched i k t = true <-> In (i, k) (sched t).
Proof.
  unfold executes. rewrite existsb_exists. split.
  - intros [[j l] [H E]]. apply andb_true_iff in E. cbn in E. rewrite !Nat.eqb_eq in E. destruct E as [-> ->]. exact H.
  - intros H. exists (i, k). split; [exact H|]. cbn. rewrite !Nat.eqb_refl. reflexivity.
Qed.

Lemma task_executes_iff i t : task_executes sched i t = true <-> exists k, In (i, k) (sched t).
Proof.
  unfold task_executes. rewrite existsb_exists. split.
  - intros [[j l] [H E]]. apply Nat.eqb_eq in E. cbn in E. subst j. exists l. exact H.
  - intros [k H]. exists (i, k). split; [exact H|apply Nat.eqb_refl].
Qed.

Lemma executes_cs_iff c t : executes_cs sched c t = true <-> (cr_start c <= t < cr_end c /\ In (cr_task c, cr_job c) (sched t)).
Proof. unfold executes_cs. rewrite !andb_true_iff, Z.leb_le, Z.ltb_lt, executes_iff. reflexivity. Qed.

Lemma index_task j : (j < length info)%nat -> exists u, nth_error info j = Some u /\ In u info /\ ti_id u = j /\ tprio info j = ti_prio u.
Proof.
  intros H. destruct (nth_error info j) as [u|] eqn:E; [|apply nth_error_None in E; lia]. exists u.
  split; [reflexivity|]. split; [eapply nth_error_In; exact E|]. split; [apply (info_id info WF); exact E|]. unfold tprio. rewrite E. reflexivity.
Qed.

Lemma task_prio u : In u info -> tprio info (ti_id u) = ti_prio u.
Proof. intros H. unfold tprio. rewrite (info_nth info WF u H). reflexivity. Qed.

Lemma prio_inj u v : In u info -> In v info -> ti_prio u = ti_prio v -> u = v.
Proof.
  intros HU HV E. destruct PP as [ND _]. clear - ND HU HV E. induction info as [|x l IH]; [destruct HU|]. cbn [map] in ND. inversion ND as [|a b NI ND']; subst.
  destruct HU as [->|HU], HV as [->|HV]; auto.
  - exfalso. apply NI. rewrite E. apply in_map. exact HV.
  - exfalso. apply NI. rewrite <- E. apply in_map. exact HU.
Qed.

Lemma rel_step u h h' : In u info -> (h < h')%nat -> rel (ti_id u) h + Z.of_N (ti_period u) <= rel (ti_id u) h'.
Proof.
  intros HU H. induction H as [|h' H IH]; [apply (px_releases _ _ _ _ _ _ EX u HU)|]. pose proof (proj1 (px_releases _ _ _ _ _ _ EX u HU h')). lia.
Qed.

Lemma rel_ge u h : In u info -> rel (ti_id u) 0%nat + Z.of_nat h <= rel (ti_id u) h.
Proof.
  intros HU. destruct WF as [_ W2]. pose proof (proj1 (W2 u HU)). induction h as [|h IH]; [lia|]. pose proof (proj1 (px_releases _ _ _ _ _ _ EX u HU h)). lia.
Qed.

Lemma before_deadline u h t : In u info -> t < e -> pending rel comp (ti_id u) h t -> rel (ti_id u) h <= t < rel (ti_id u) h + Z.of_N (ti_deadline u).
Proof. intros HU HT [P1 P2]. destruct (OT u HU h); lia. Qed.

Lemma pending_unique u h h' t : In u info -> t < e -> pending rel comp (ti_id u) h t -> pending rel comp (ti_id u) h' t -> h = h'.
Proof.
  intros HU HT P P'. pose proof (before_deadline u h t HU HT P) as B. pose proof (before_deadline u h' t HU HT P') as B'. destruct PP as [_ PQ]. destruct (PQ u HU) as [PD _].
  destruct (Nat.lt_trichotomy h h') as [L|[L|L]]; [|exact L|]; pose proof (rel_step u _ _ HU L); lia.
Qed.

Lemma request_task r c : In c (tr r) -> exists u q, In u info /\ ti_id u = cr_task c /\ In q (ti_requests u) /\ q_res q = r /\ instants (executes_cs sched c) (cr_start c) (cr_end c) <= Z.of_N (q_len q).
Proof.
  intros H. destruct (lr_spec _ _ _ _ _ _ (LR r) c H) as [u [q [H1 [H2 [H3 H4]]]]]. exists u, q. split; [eapply nth_error_In; exact H1|]. split; [apply (info_id info WF); exact H1|]. auto.
Qed.

Lemma request_pending r c t : In c (tr r) -> cr_issue c <= t < cr_end c -> pending rel comp (cr_task c) (cr_job c) t.
Proof. intros H HT. destruct (lr_job _ _ _ _ _ _ (LR r) c H). unfold pending. lia. Qed.

Lemma request_times r c : In c (tr r) -> cr_issue c <= cr_start c <= cr_end c.
Proof. apply (lr_times _ _ _ _ _ _ (LR r)). Qed.

Lemma outstanding_unique r s a b t : In a (tr r) -> In b (tr s) -> cr_task a = cr_task b -> cr_issue a <= t < cr_end a -> cr_issue b <= t < cr_end b -> (r, a) = (s, b).
Proof.
  intros A B E TA TB. assert (DEC : {(r, a) = (s, b)} + {(r, a) <> (s, b)}) by (repeat decide equality). destruct DEC as [D|NE]; [exact D|exfalso].
  destruct (px_sequential _ _ _ _ _ _ EX r s a b A B NE E); lia.
Qed.

Lemma holder_unique r a b t : In a (tr r) -> In b (tr r) -> cr_start a <= t < cr_end a -> cr_start b <= t < cr_end b -> a = b.
Proof.
  intros A B TA TB. assert (DEC : {a = b} + {a <> b}) by (repeat decide equality). destruct DEC as [D|NE]; [exact D|exfalso].
  destruct (px_mutex _ _ _ _ _ _ EX r a b A B NE); lia.
Qed.

Lemma tasks_nodup t : t < e -> NoDup (map fst (sched t)).
Proof.
  intros HT. destruct (px_cpus _ _ _ _ _ _ EX t) as [ND _]. assert (A : forall l, incl l (sched t) -> NoDup l -> NoDup (map fst l)); [|apply A; [apply incl_refl|exact ND]].
  induction l as [|[j h] l IH]; intros HI N; [constructor|]. inversion N as [|x y H1 H2]; subst. cbn. constructor; [|apply IH; [|exact H2]; intros z Hz; apply HI; right; exact Hz].
  intros X. apply in_map_iff in X. destruct X as [[j' h'] [E H']]. cbn in E. subst j'. apply H1.
  destruct (px_running _ _ _ _ _ _ EX t j h (HI _ (or_introl eq_refl))) as [B [P _]]. destruct (px_running _ _ _ _ _ _ EX t j h' (HI _ (or_intror H'))) as [_ [P' _]].
  destruct (index_task j B) as [u [_ [HU [EU _]]]]. rewrite <- EU in P, P'. rewrite (pending_unique u h h' t HU HT P P'). exact H'.
Qed.

(** ** Work of a task in a window *)
Section Work.
Context (r0 : Z) (u : taskinfo) (P : nat -> Z -> bool) (Q : Z -> bool) (x rho L : Z).
Hypothesis HU : In u info.
Hypothesis H0 : r0 <= e.
Hypothesis HL : e - r0 <= L.
Hypothesis Hx : 0 <= x <= rho.
Hypothesis HxT : x <= Z.of_N (ti_period u).
Hypothesis HP : forall h t, r0 <= t < e -> P h t = true -> pending rel comp (ti_id u) h t.
Hypothesis HC : forall h, cnt (P h) (zrange r0 e) <= x.
Hypothesis HR : forall h, comp (ti_id u) h <= rel (ti_id u) h + rho \/ e <= rel (ti_id u) h + rho.
Hypothesis HQ : forall t, r0 <= t < e -> Q t = true -> exists h, P h t = true.

Lemma task_work : cnt Q (zrange r0 e) <= wl x (Z.of_N (ti_period u)) (L + rho - x).
Proof.
  destruct WF as [_ W2]. pose proof (proj1 (W2 u HU)) as HT. set (K := S (Z.to_nat (e - rel (ti_id u) 0%nat))).
  apply Z.le_trans with (cnt (fun t => existsb (fun h => P h t) (seq 0 K)) (zrange r0 e)).
  { apply cnt_le. intros t Ht Q1. apply in_zrange in Ht. destruct (HQ t Ht Q1) as [h Hh]. apply existsb_exists. exists h. split; [|exact Hh].
    apply in_seq. destruct (HP h t Ht Hh) as [P1 _]. pose proof (rel_ge u h HU). unfold K. lia. }
  eapply Z.le_trans; [apply (cnt_exists P)|]. rewrite <- sumf_seq.
  eapply Z.le_trans; [apply (workload_any x (Z.of_N (ti_period u)) rho r0 (fun h => cnt (P h) (zrange r0 e)) (rel (ti_id u))) with (L := e - r0)|].
  - lia.
  - lia.
  - intros h. apply (px_releases _ _ _ _ _ _ EX u HU h).
  - intros h. split; [apply cnt_nonneg|apply HC].
  - intros h. apply cnt_span. intros t Ht Ph. destruct (HP h t Ht Ph). destruct (HR h); lia.
  - lia.
  - lia.
  - intros h. eapply Z.le_trans; [apply (cnt_span _ _ _ r0 e)|]; [auto|lia].
  - intros h. replace (r0 + (e - r0) - rel (ti_id u) h) with (e - rel (ti_id u) h) by lia. apply cnt_span. intros t Ht Ph. destruct (HP h t Ht Ph). lia.
  - apply (proj1 (wl_lipschitz x (Z.of_N (ti_period u)) (e - r0 + rho - x) (L + rho - x) ltac:(lia) ltac:(lia) ltac:(lia))).
Qed.
End Work.

(** ** Critical sections of a task in a window *)
Definition in_section (S : nat -> bool) (u : taskinfo) (h : nat) (t : Z) : bool :=
  existsb (fun q => S (q_res q) && existsb (fun c => executes_cs sched c t) (filter (is_job (ti_id u) h) (tr (q_res q)))) (ti_requests u).

Lemma is_job_iff j h c : is_job j h c = true <-> cr_task c = j /\ cr_job c = h.
Proof. unfold is_job. rewrite andb_true_iff, !Nat.eqb_eq. reflexivity. Qed.

Lemma in_section_iff S u h t : In u info -> (in_section S u h t = true <-> exists r c, S r = true /\ In c (tr r) /\ cr_task c = ti_id u /\ cr_job c = h /\ executes_cs sched c t = true).
Proof.
  intros HU. unfold in_section. rewrite existsb_exists. split.
  - intros [q [HQ H]]. apply andb_true_iff in H. destruct H as [H1 H2]. apply existsb_exists in H2. destruct H2 as [c [HC E]]. apply filter_In in HC. destruct HC as [HC J]. apply is_job_iff in J.
    exists (q_res q), c. tauto.
  - intros [r [c [HS [HC [E1 [E2 X]]]]]]. destruct (request_task r c HC) as [v [q [HV [EV [HQ [ER _]]]]]]. assert (v = u) by (apply (info_inj info WF); [exact HV|exact HU|congruence]). subst v r.
    exists q. split; [exact HQ|]. apply andb_true_iff. split; [exact HS|]. apply existsb_exists. exists c. split; [|exact X]. apply filter_In. split; [exact HC|]. apply is_job_iff. auto.
Qed.

Lemma section_length r c r0 q u : In c (tr r) -> In u info -> cr_task c = ti_id u -> In q (ti_requests u) -> q_res q = r -> cnt (executes_cs sched c) (zrange r0 e) <= Z.of_N (q_len q).
Proof.
  intros HC HU E HQ ER. subst r. eapply Z.le_trans; [|apply (length_bound info rel comp (fun _ => executes_cs sched) tr WF LR (RB u q) c)].
  - rewrite <- cnt_length. apply instants_filter; [apply zrange_nodup|]. intros t _ X. apply executes_cs_iff in X. apply X.
  - apply in_all_requests. split; [exact HU|exact HQ].
  - exact HC.
  - exact E.
Qed.

Lemma job_sections S u h r0 : In u info -> cnt (in_section S u h) (zrange r0 e) <= section_time S u.
Proof.
  intros HU. unfold in_section, section_time. eapply Z.le_trans; [apply (cnt_exists (fun q t => S (q_res q) && existsb (fun c => executes_cs sched c t) (filter (is_job (ti_id u) h) (tr (q_res q)))))|].
  apply zsum_map_le. intros q HQ. destruct (S (q_res q)); cbn [andb].
  - eapply Z.le_trans; [apply (cnt_exists (executes_cs sched))|]. eapply Z.le_trans.
    + apply zsum_map_le with (g := fun _ => Z.of_N (q_len q)). intros c HC. apply filter_In in HC. destruct HC as [HC J]. apply is_job_iff in J. apply (section_length (q_res q) c r0 q u); tauto.
    + rewrite zs_const. pose proof (lr_number _ _ _ _ _ _ (LR (q_res q)) (ti_id u) h u q (info_nth info WF u HU) HQ eq_refl). nia.
  - unfold cnt. rewrite zs_const. cbn. lia.
Qed.

Lemma section_pending S u h t : In u info -> in_section S u h t = true -> In (ti_id u, h) (sched t) /\ pending rel comp (ti_id u) h t.
Proof.
  intros HU H. apply (in_section_iff S u h t HU) in H. destruct H as [r [c [_ [HC [E1 [E2 X]]]]]]. apply executes_cs_iff in X. destruct X as [_ X]. rewrite E1, E2 in X. split; [exact X|]. apply (px_running _ _ _ _ _ _ EX t _ _ X).
Qed.

Lemma sections_bound (S : nat -> bool) u (Q : Z -> bool) r0 (R x : N) : In u info -> r0 <= e -> e - r0 <= Z.of_N R -> Z.of_N x = section_time S u -> (R + ti_deadline u < 2 ^ 32)%N ->
  (forall t, r0 <= t < e -> Q t = true -> exists h, in_section S u h t = true) ->
  cnt Q (zrange r0 e) <= Z.of_N (W_l_tx R u x).
Proof.
  intros HU H0 HL EX' HF HQ. destruct PP as [_ PQ]. destruct (PQ u HU) as [PD [_ [PS _]]]. destruct WF as [_ W2]. pose proof (section_time_all S u). pose proof (section_time_nonneg S u).
  rewrite W_value; [|apply (W2 u HU)|lia|exact HF].
  apply (task_work r0 u (in_section S u) Q (Z.of_N x) (Z.of_N (ti_deadline u)) (Z.of_N R)); auto; try lia.
  - intros h t _ H2. apply (section_pending S u h t HU H2).
  - intros h. rewrite EX'. apply job_sections. exact HU.
Qed.
End Exec.
