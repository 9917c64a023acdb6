(** A check that a finite table is an execution under EDF with the SRP. *)
From Coq Require Import NArith ZArith List Bool Lia Arith.
From Verif Require Import ModelLocking SpecLocking SpecSpinFP SpecSpinEDF ProofSpinTable.
Import ListNotations.
Open Scope Z_scope.

(** earliest deadline first, ties by task and job *)
Definition edf_before (info : list taskinfo) (E : execution) (a b : nat * nat) : Prop :=
  due info E a < due info E b \/ (due info E a = due info E b /\ (fst a < fst b \/ (fst a = fst b /\ snd a < snd b))%nat).
Lemma edf_urgency info E : urgency info E (edf_before info E).
Proof.
  constructor; unfold edf_before.
  - intros a b H H'. lia.
  - intros [a1 a2] [b1 b2] N. cbn. assert (a1 <> b1 \/ a2 <> b2)%nat by (destruct (Nat.eq_dec a1 b1), (Nat.eq_dec a2 b2); [subst; exfalso; auto|auto..]). lia.
  - intros a b t u _ _ H. left. exact H.
Qed.
Definition beforeb (info : list taskinfo) (E : execution) (a b : nat * nat) : bool :=
  (due info E a <? due info E b) || ((due info E a =? due info E b) && ((fst a <? fst b)%nat || (Nat.eqb (fst a) (fst b) && (snd a <? snd b)%nat))).
Lemma beforeb_iff info E a b : beforeb info E a b = true <-> edf_before info E a b.
Proof. unfold beforeb, edf_before. rewrite orb_true_iff, andb_true_iff, orb_true_iff, andb_true_iff, Z.ltb_lt, Z.eqb_eq, !Nat.ltb_lt, Nat.eqb_eq. reflexivity. Qed.

Definition pjobs (info : list taskinfo) (T : table) (c : nat) (t : Z) : list (nat * nat) :=
  concat (map (fun i => match nth_error info i with
    | Some u => if Nat.eqb (ti_cluster u) c then map (pair i) (filter (fun k => match nth_error (jobs T i) k with Some x => (fst x <=? t) && (t <? snd x) | None => false end) (seq 0 (length (jobs T i)))) else []
    | None => [] end) (seq 0 (length info))).
Definition startedb (info : list taskinfo) (T : table) (j : nat * nat) (t : Z) : bool := existsb (fun u => (u <? t) && runs (table_exec T) info j u) (times T).
Definition in_globalb (info : list taskinfo) (T : table) (j : nat * nat) (t : Z) : bool :=
  existsb (fun r => globalb info r && existsb (fun a => jobeqb (jobof a) j && (cr_issue a <? t) && (t <? cr_end a)) (nth r (tb_reqs T) [])) (resrange T).
Definition blockedb (info : list taskinfo) (T : table) (c : nat) (j : nat * nat) (t : Z) : bool :=
  existsb (fun r => negb (globalb info r) && existsb (fun a => negb (jobeqb (jobof a) j) && (cr_issue a <? t) && (t <? cr_end a) &&
    match nth_error info (cr_task a) with Some k => Nat.eqb (ti_cluster k) c | None => false end &&
    match nth_error info (fst j) with Some u => (ceilingb info r <=? ti_prio u)%N | None => false end) (nth r (tb_reqs T) [])) (resrange T).
Definition urgentb (info : list taskinfo) (T : table) (l : list (nat * nat)) (j : nat * nat) : bool :=
  existsb (jobeqb j) l && forallb (fun x => jobeqb x j || beforeb info (table_exec T) j x) l.

Definition edf_ok (info : list taskinfo) (T : table) : bool :=
  forallb (fun t => forallb (fun k => let c := ti_cluster k in let l := pjobs info T c t in
    match x_sched (table_exec T) c t with
    | None => match l with [] => true | _ => false end
    | Some j => in_globalb info T j t || (urgentb info T l j && (startedb info T j t || negb (blockedb info T c j t))) ||
        (startedb info T j t && urgentb info T (filter (fun x => startedb info T x t) l) j &&
         existsb (fun h => urgentb info T l h && negb (startedb info T h t) && blockedb info T c h t) l)
    end) info) (times T).
Definition table_edf_ok (info : list taskinfo) (T : table) : bool :=
  locks_ok info T && edf_ok info T && pairs_ok info T (fun _ a b => negb (cr_issue a <? cr_issue b) || (cr_end a <=? cr_start b)).

Lemma jobs_range info T i t k x : jobs_ok info T = true -> nth_error info i = Some t -> nth_error (jobs T i) k = Some x -> 0 <= fst x /\ snd x <= Z.of_nat (tb_end T).
Proof.
  unfold jobs_ok. rewrite forallb_forall. intros J H K. specialize (J i (nth_in info i t H)). rewrite H in J. rewrite !andb_true_iff, !forallb_forall in J. destruct J as [[_ J3] _]. specialize (J3 x (nth_error_In _ _ K)). rewrite !andb_true_iff, !Z.leb_le in J3. lia.
Qed.

Lemma in_pjobs info T c t j : In j (pjobs info T c t) <-> on_cpu info c j /\ pending (table_exec T) j t.
Proof.
  unfold pjobs. rewrite in_concat. split.
  - intros [l [L I]]. apply in_map_iff in L. destruct L as [i [<- _]]. destruct (nth_error info i) as [u|] eqn:U; [|destruct I]. destruct (Nat.eqb_spec (ti_cluster u) c) as [C|C]; [|destruct I].
    apply in_map_iff in I. destruct I as [k [<- K]]. apply filter_In in K. destruct K as [_ K]. destruct (nth_error (jobs T i) k) as [x|] eqn:X; [|discriminate]. rewrite andb_true_iff, Z.leb_le, Z.ltb_lt in K.
    split; [exists u; auto|]. unfold pending. cbn. rewrite X. lia.
  - intros [[u [U C]] P]. destruct j as [i k]. cbn [fst snd] in *. eexists. split; [apply in_map_iff; exists i; split; [reflexivity|apply (nth_in info i u U)]|]. rewrite U, C, Nat.eqb_refl.
    unfold pending in P. cbn in P. destruct (nth_error (jobs T i) k) as [x|] eqn:X; [|lia]. apply in_map, filter_In. split; [apply (nth_in _ k x X)|]. rewrite X, andb_true_iff, Z.leb_le, Z.ltb_lt. lia.
Qed.

Lemma startedb_iff info T j t : locks_ok info T = true -> (startedb info T j t = true <-> started info (table_exec T) j t).
Proof.
  intros LK. pose proof (locks_ok_sound info T LK) as LR. unfold locks_ok in LK. rewrite !andb_true_iff in LK. destruct LK as [[J _] _].
  unfold startedb, started. rewrite existsb_exists. split.
  - intros [u [_ H]]. rewrite andb_true_iff, Z.ltb_lt in H. exists u. exact H.
  - intros [u [L R]]. exists u. split; [|rewrite andb_true_iff, Z.ltb_lt; auto]. apply in_times. destruct (nth_error info (fst j)) as [k|] eqn:K; [|unfold runs in R; rewrite K in R; discriminate].
    pose proof R as R'. unfold runs in R'. rewrite K in R'. destruct (x_sched (table_exec T) (ti_cluster k) u) as [j'|] eqn:S; [|discriminate]. destruct (lr_sched _ _ LR _ _ _ S) as [P _].
    rewrite andb_true_iff, !Nat.eqb_eq in R'. destruct R' as [R1 R2]. assert (j' = j) by (destruct j, j'; cbn in *; congruence). subst j'. unfold pending in P. cbn in P. destruct (nth_error (jobs T (fst j)) (snd j)) as [x|] eqn:X; [|lia]. pose proof (jobs_range _ _ _ _ _ _ J K X). lia.
Qed.

Lemma in_globalb_sound info T j t : in_globalb info T j t = true -> in_global info (table_exec T) j t.
Proof.
  unfold in_globalb, in_global. intros H. apply existsb_exists in H. destruct H as [r [_ H]]. apply andb_true_iff in H. destruct H as [G H]. apply globalb_iff in G. apply existsb_exists in H. destruct H as [a [A H]].
  rewrite !andb_true_iff, jobeqb_iff, !Z.ltb_lt in H. exists r, a. cbn [x_tr table_exec]. tauto.
Qed.

Lemma blockedb_iff info T c j t : locks_ok info T = true -> (blockedb info T c j t = true <-> ceiling_blocked info (table_exec T) c j t).
Proof.
  intros LK. pose proof (locks_ok_sound info T LK) as LR.
  assert (CE : forall r a, In a (nth r (tb_reqs T) []) -> is_ceiling info r (ceilingb info r)).
  { intros r a A. destruct (lr_spec _ _ LR r a A) as [k [q [K [Q [R _]]]]]. apply (ceilingb_spec info r k). split; [eapply nth_error_In; exact K|exists q; auto]. }
  unfold blockedb, ceiling_blocked. rewrite existsb_exists. split.
  - intros [r [_ H]]. rewrite andb_true_iff, negb_true_iff in H. destruct H as [G H]. apply existsb_exists in H. destruct H as [a [A H]]. rewrite !andb_true_iff, negb_true_iff, !Z.ltb_lt in H. destruct H as [[[[H1 H2] H3] H4] H5].
    destruct (nth_error info (cr_task a)) as [k|] eqn:K; [|discriminate]. apply Nat.eqb_eq in H4. destruct (nth_error info (fst j)) as [u|] eqn:U; [|discriminate]. apply N.leb_le in H5.
    exists r, a, (ceilingb info r), u. split; [intros X; apply globalb_iff in X; congruence|]. split; [exact A|]. split; [intros X; apply jobeqb_iff in X; congruence|]. split; [exists k; auto|]. split; [lia|]. split; [apply (CE r a A)|auto].
  - intros [r [a [p [u [G [A [N [[k [K C]] [TM [CP [U P]]]]]]]]]]]. cbn [x_tr table_exec] in A. exists r. split; [apply (res_in T r a A)|]. rewrite andb_true_iff, negb_true_iff. split.
    + destruct (globalb info r) eqn:X; [apply globalb_iff in X; contradiction|reflexivity].
    + apply existsb_exists. exists a. split; [exact A|]. cbn [fst jobof] in K. rewrite K, U, !andb_true_iff, negb_true_iff, !Z.ltb_lt, Nat.eqb_eq, N.leb_le. rewrite (ceiling_unique info r _ p (CE r a A) CP).
      repeat split; auto; try lia. destruct (jobeqb (jobof a) j) eqn:X; [apply jobeqb_iff in X; contradiction|reflexivity].
Qed.

Lemma urgentb_sound info T l j : urgentb info T l j = true -> In j l /\ forall x, In x l -> x <> j -> edf_before info (table_exec T) j x.
Proof.
  unfold urgentb. rewrite andb_true_iff, forallb_forall. intros [A B]. apply existsb_exists in A. destruct A as [y [Y1 Y2]]. apply jobeqb_iff in Y2. subst y. split; [exact Y1|].
  intros x X N. specialize (B x X). apply orb_true_iff in B. destruct B as [B|B]; [apply jobeqb_iff in B; contradiction|apply beforeb_iff; exact B].
Qed.

Theorem table_edf_sound info T : table_edf_ok info T = true -> edf_execution info (table_exec T) (edf_before info (table_exec T)).
Proof.
  unfold table_edf_ok. rewrite !andb_true_iff. intros [[LK ED] FF]. pose proof (locks_ok_sound info T LK) as LR.
  assert (J : jobs_ok info T = true) by (unfold locks_ok in LK; rewrite !andb_true_iff in LK; tauto).
  assert (TM : forall c j t, on_cpu info c j -> pending (table_exec T) j t -> exists k, In k info /\ ti_cluster k = c /\ In t (times T)).
  { intros c j t [k [K C]] P. exists k. split; [eapply nth_error_In; exact K|split; [exact C|]]. unfold pending in P. cbn in P. destruct (nth_error (jobs T (fst j)) (snd j)) as [x|] eqn:X; [|lia]. pose proof (jobs_range _ _ _ _ _ _ J K X). apply in_times. lia. }
  assert (MU : forall c t j, urgentb info T (pjobs info T c t) j = true -> most_urgent info (table_exec T) (edf_before info (table_exec T)) c t j).
  { intros c t j U. apply urgentb_sound in U. destruct U as [U1 U2]. apply in_pjobs in U1. split; [apply U1|split; [apply U1|]]. intros x X P N. apply U2; [apply in_pjobs; auto|exact N]. }
  unfold edf_ok in ED. rewrite forallb_forall in ED. constructor.
  - exact LR.
  - intros r a b G A B. refine (pairs_sound info T _ (fun _ a b => cr_issue a < cr_issue b -> cr_end a <= cr_start b) _ FF r a b G A B).
    intros _ x y X. apply orb_true_iff in X. destruct X as [X|X]; [apply negb_true_iff, Z.ltb_ge in X; intros; lia|apply Z.leb_le in X; auto].
  - apply edf_urgency.
  - intros c j t C P X. destruct (TM c j t C P) as [k [K [CK IT]]]. specialize (ED t IT). rewrite forallb_forall in ED. specialize (ED k K). cbv zeta in ED. rewrite CK, X in ED.
    assert (I : In j (pjobs info T c t)) by (apply in_pjobs; auto). destruct (pjobs info T c t); [destruct I|discriminate].
  - intros c t j S. destruct (lr_sched _ _ LR _ _ _ S) as [P [k0 [K0 C0]]]. assert (C : on_cpu info c j) by (exists k0; auto). destruct (TM c j t C P) as [k [K [CK IT]]].
    specialize (ED t IT). rewrite forallb_forall in ED. specialize (ED k K). cbv zeta in ED. rewrite CK, S, !orb_true_iff in ED. destruct ED as [[ED|ED]|ED].
    + left. apply in_globalb_sound. exact ED.
    + right. left. rewrite andb_true_iff, orb_true_iff, negb_true_iff in ED. destruct ED as [E1 E2]. split; [apply MU; exact E1|]. destruct E2 as [E2|E2]; [left; apply (startedb_iff info T j t LK); exact E2|right]. intros X. apply (blockedb_iff info T c j t LK) in X. congruence.
    + right. right. rewrite !andb_true_iff in ED. destruct ED as [[E1 E2] E3]. apply (startedb_iff info T j t LK) in E1. split; [exact E1|]. apply urgentb_sound in E2. destruct E2 as [_ E2]. split.
      * intros x X PX SX N. apply E2; [|exact N]. apply filter_In. split; [apply in_pjobs; auto|apply (startedb_iff info T x t LK); exact SX].
      * apply existsb_exists in E3. destruct E3 as [h [_ E3]]. rewrite !andb_true_iff, negb_true_iff in E3. destruct E3 as [[E3 E4] E5]. exists h. split; [apply MU; exact E3|]. split; [intros X; apply (startedb_iff info T h t LK) in X; congruence|apply (blockedb_iff info T c h t LK); exact E5].
Qed.
