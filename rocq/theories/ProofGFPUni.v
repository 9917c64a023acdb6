(** Existence of global fixed-priority schedules, and the uniprocessor case. *)
From Coq Require Import ZArith List Bool Lia Permutation Sorted.
From Verif Require Import Base ModelTasks ModelFP ModelGFP SpecUni SpecFP SpecQPA SpecGlobal SpecGFP ProofUni ProofGreedy ProofEDF ProofFP ProofFPExact
  ProofGlobal ProofGlobalGreedy ProofGEDF ProofGFP ProofGFPTop.
Import ListNotations.
Open Scope Z_scope.

Definition prio (j : job) : Z := Z.of_nat (fst j).
Definition pick_gfp (n m : nat) (s : jobseq) (t : nat) (f : job -> Z) : list job :=
  firstn m (isort prio (filter (greadyb s t f) (candidates n t))).
Definition gfp_schedule (n m : nat) (s : jobseq) : gschedule := ggreedy (pick_gfp n m s).

Lemma gfp_schedule_eq : forall n m s t, gfp_schedule n m s t =
  firstn m (isort prio (filter (greadyb s t (fun j => gservice (gfp_schedule n m s) j t)) (candidates n t))).
Proof.
  intros. unfold gfp_schedule. rewrite ggreedy_ext; [reflexivity|]. intros t0 f g H. unfold pick_gfp. do 2 f_equal.
  apply filter_ext'. intros j. unfold greadyb. rewrite H. f_equal. apply forallb_ext'. intros k. rewrite H. reflexivity.
Qed.

Lemma gfp_schedule_valid : forall n m s, gvalid n m s (gfp_schedule n m s).
Proof.
  intros n m s t. rewrite gfp_schedule_eq. split; [apply firstn_le_length|]. set (L := filter _ _). split.
  - apply NoDup_firstn. eapply Permutation_NoDup; [apply isort_perm|]. apply NoDup_filter. apply candidates_nodup.
  - intros j Hj. apply firstn_in in Hj. eapply Permutation_in in Hj; [|symmetry; apply isort_perm].
    apply filter_In in Hj. destruct Hj as [H1 H2]. apply in_candidates in H1. apply greadyb_iff in H2. tauto.
Qed.

Lemma ready_same_task : forall s sc i h h' t, gready s sc (i, h) t -> gready s sc (i, h') t -> h = h'.
Proof.
  assert (A : forall s sc i h h' t, gready s sc (i, h) t -> gready s sc (i, h') t -> (h < h')%nat -> False).
  { intros s sc i h h' t [_ [H _]] [_ [_ H']] L. specialize (H' h L). unfold gcompleted in H'. cbn [fst snd] in *. lia. }
  intros s sc i h h' t H H'. destruct (Nat.lt_trichotomy h h') as [L|[E|L]]; [exfalso; eapply A; [exact H|exact H'|exact L]|assumption|exfalso; eapply A; [exact H'|exact H|exact L]].
Qed.

Lemma gfp_schedule_strict : forall n m s, (forall h k, (h < n)%nat -> (k <= rel s h k)%nat) -> gfp_strict n m s (gfp_schedule n m s).
Proof.
  intros n m s Hidx t j Hj Hr Hn. pose proof (gfp_schedule_valid n m s t) as [_ [_ Hv]]. rewrite gfp_schedule_eq in *.
  set (L := filter _ _) in *. set (I := isort prio L) in *.
  assert (Hin : In j I).
  { eapply Permutation_in; [apply isort_perm|]. apply filter_In. split; [|apply greadyb_iff; exact Hr].
    apply in_candidates. split; [assumption|]. destruct Hr as [Hr _]. specialize (Hidx (fst j) (snd j) Hj). lia. }
  assert (Hs : In j (skipn m I)).
  { rewrite <- (firstn_skipn m I) in Hin. apply in_app_or in Hin. destruct Hin; [contradiction|assumption]. }
  split.
  - rewrite firstn_length. destruct (Nat.le_gt_cases m (length I)); [lia|]. rewrite skipn_all2 in Hs by lia. destruct Hs.
  - intros j' Hj'. assert (prio j' <= prio j).
    { apply (sorted_split prio (firstn m I) (skipn m I)); try assumption. rewrite firstn_skipn. apply isort_sorted. }
    unfold prio in H. destruct (Nat.eq_dec (fst j') (fst j)) as [E|E]; [exfalso|lia].
    destruct (Hv j' Hj') as [_ Hr']. destruct j as [i h], j' as [i' h']. cbn [fst] in E. subst i'.
    rewrite (ready_same_task _ _ _ _ _ _ Hr' Hr) in Hj'. contradiction.
Qed.

Lemma gfp_exists : forall ts m s, Forall wf_etask ts -> legal_edf ts s ->
  exists sc, gvalid (length ts) m s sc /\ gfp_strict (length ts) m s sc.
Proof.
  intros ts m s Hw Hl. exists (gfp_schedule (length ts) m s). split; [apply gfp_schedule_valid|].
  apply gfp_schedule_strict. intros h k Hh. eapply idx_le; eassumption.
Qed.

Lemma strict_blocking : forall n m s sc other direct, gfp_strict n m s sc -> gfp_blocking n m s sc other direct.
Proof. intros n m s sc o d H t j Hj Hr Hn. right. right. apply H; assumption. Qed.

(** ** One processor *)
Definition uni_of (sc : gschedule) : schedule := fun t => hd_error (sc t).

Lemma uni_runs : forall n s sc j t, gvalid n 1 s sc -> runs (uni_of sc) j t = gruns sc j t.
Proof.
  intros n s sc j t Hv. unfold runs, uni_of, gruns. destruct (Hv t) as [L _]. destruct (sc t) as [|x [|y r]]; cbn in *; [reflexivity| |lia].
  rewrite orb_false_r. unfold job_eqb. rewrite (Nat.eqb_sym (fst x)), (Nat.eqb_sym (snd x)). reflexivity.
Qed.

Lemma uni_service : forall n s sc j t, gvalid n 1 s sc -> service (uni_of sc) j t = gservice sc j t.
Proof. intros n s sc j t Hv. unfold service, gservice. apply sumf_ext. intros. rewrite (uni_runs n s) by assumption. reflexivity. Qed.

Lemma uni_valid : forall n s sc, gvalid n 1 s sc -> valid_schedule n s (uni_of sc).
Proof.
  intros n s sc Hv t j H. unfold uni_of in H. destruct (Hv t) as [_ [_ Hj]].
  assert (Hin : In j (sc t)) by (destruct (sc t); [discriminate|injection H as <-; left; reflexivity]).
  destruct (Hj j Hin) as [H1 [H2 [H3 _]]]. split; [assumption|]. split; [assumption|]. rewrite (uni_service n s) by assumption. assumption.
Qed.

Lemma first_incomplete : forall s sc i t h, gservice sc (i, h) t < Z.of_nat (cst s i h) ->
  exists k, (k <= h)%nat /\ gservice sc (i, k) t < Z.of_nat (cst s i k) /\ forall k', (k' < k)%nat -> gcompleted s sc (i, k') t.
Proof.
  intros s sc i t. induction h as [h IH] using (well_founded_induction lt_wf). intros H.
  assert (D : (forall k, (k < h)%nat -> gcompleted s sc (i, k) t) \/ exists k, (k < h)%nat /\ gservice sc (i, k) t < Z.of_nat (cst s i k)).
  { clear IH H. induction h; [left; intros; lia|]. destruct IHh as [A|[k [A B]]]; [|right; exists k; split; [lia|assumption]].
    destruct (Z.lt_ge_cases (gservice sc (i, h) t) (Z.of_nat (cst s i h))) as [G|G]; [right; exists h; split; [lia|assumption]|left].
    intros k Hk. destruct (Nat.eq_dec k h) as [->|E]; [exact G|apply A; lia]. }
  destruct D as [D|[k [D1 D2]]]; [exists h; auto|]. destruct (IH k D1 D2) as [k' [X1 X2]]. exists k'. split; [lia|exact X2].
Qed.

Lemma uni_strict : forall ts s sc, Forall wf_etask ts -> legal_edf ts s -> gvalid (length ts) 1 s sc -> gfp_strict (length ts) 1 s sc ->
  fp_strict (length ts) s (uni_of sc).
Proof.
  intros ts s sc Hw Hl Hv Hp t [i h] Hi [P1 P2]. cbn [fst snd] in *. rewrite (uni_service _ _ _ _ _ Hv) in P2.
  destruct (first_incomplete s sc i t h P2) as [k [K1 [K2 K3]]].
  assert (Hr : gready s sc (i, k) t).
  { split; [|split; assumption]. cbn [fst snd]. rewrite (arr_rel ts s Hw Hl) in * by assumption.
    destruct (Nat.eq_dec k h) as [->|E]; [assumption|]. pose proof (sep_lt ts s Hw Hl i k h Hi ltac:(lia)). destruct (et_ok ts s Hw Hl i Hi). lia. }
  unfold uni_of. destruct (gruns sc (i, k) t) eqn:E.
  - apply gruns_iff in E. destruct (Hv t) as [L _]. destruct (sc t) as [|x [|y r]]; [destruct E| |cbn in L; lia]. destruct E as [->|[]].
    exists (i, k). split; [reflexivity|]. unfold hep. cbn [fst snd]. rewrite Nat.eqb_refl. apply orb_true_iff. right. cbn. apply Nat.leb_le. assumption.
  - assert (Hn : ~ In (i, k) (sc t)) by (rewrite <- gruns_iff; congruence). destruct (Hp t (i, k) Hi Hr Hn) as [L A].
    destruct (sc t) as [|x [|y r]]; cbn in L; try lia. exists x. split; [reflexivity|]. unfold hep. cbn [fst snd] in *.
    assert ((fst x <? i)%nat = true) as -> by (apply Nat.ltb_lt; apply A; left; reflexivity). reflexivity.
Qed.

Lemma allowed_nonneg : forall (ts : list fptask) f, Forall (fun t => 0 <= f t) ts -> forall i, 0 <= allowed f ts i.
Proof.
  intros ts f H i. unfold allowed. destruct (nth_error ts i) eqn:E; [|lia]. apply nth_error_In in E. rewrite Forall_forall in H. apply H. assumption.
Qed.

Lemma strict_allowed : forall ts f s sc, Forall (fun t => 0 <= f t) ts -> fp_strict (length ts) s sc -> fp_policy (length ts) s sc (allowed f ts).
Proof.
  intros ts f s sc Hf H j t1 t2 Hj Ht Hp. pose proof (strict_policy _ _ _ H j t1 t2 Hj Ht Hp). cbn beta in H0.
  pose proof (allowed_nonneg ts f Hf (fst j)). lia.
Qed.

Lemma uni_sound : forall fuel (ts : list gtask) b done, Forall wf_g ts -> Forall (fun t => 1 <= t_cost (g_task t)) ts ->
  bound_response_times fuel 1 (map uni_task ts) = Accepted (b, done) ->
  (b = true -> length done = length ts) /\
  forall s sc, legal_edf (ets ts) s -> gvalid (length ts) 1 s sc -> gfp_strict (length ts) 1 s sc ->
  forall i t r, nth_error done i = Some (t, r) -> forall k, responds s sc (i, k) r.
Proof.
  intros fuel ts b done Hw HC H.
  assert (Hwf : Forall SpecFP.wf_task (map uni_task ts)).
  { apply Forall_map. rewrite Forall_forall in *. intros t Ht. destruct (Hw t Ht) as [W1 [W2 [W3 [W4 W5]]]]. specialize (HC t Ht).
    unfold SpecFP.wf_task, uni_task. cbn. lia. }
  assert (Hns : no_suspension (map uni_task ts)) by (apply Forall_map; apply Forall_forall; reflexivity).
  assert (Hlen : length (map uni_task ts) = length ts) by apply map_length.
  assert (Conv : forall s sc, legal_edf (ets ts) s -> gvalid (length ts) 1 s sc -> gfp_strict (length ts) 1 s sc ->
    legal_seq (map promise_of (map uni_task ts)) s /\ valid_schedule (length (map uni_task ts)) s (uni_of sc) /\ fp_strict (length (map uni_task ts)) s (uni_of sc) /\
    forall j q, completed s (uni_of sc) j q -> gcompleted s sc j q).
  { intros s sc Hl Hv Hp. rewrite Hlen. assert (Le : length (ets ts) = length ts) by apply map_length. split; [|split; [|split]].
    - unfold legal_edf, ets in Hl. rewrite map_map in Hl. rewrite map_map. exact Hl.
    - apply uni_valid. assumption.
    - rewrite <- Le in *. apply uni_strict; try assumption. apply wf_ets. assumption.
    - intros j q Hq. unfold completed in Hq. rewrite (uni_service _ _ _ _ _ Hv) in Hq. exact Hq. }
  assert (Dec : no_legacy (map uni_task ts) \/ ~ no_legacy (map uni_task ts)).
  { generalize (map uni_task ts). intros l. unfold no_legacy. destruct (Forall_dec (fun t => fp_blocked t = None)) with (l := l) as [X|X]; [|left; exact X|right; exact X].
    intros x. destruct (fp_blocked x); [right; discriminate|left; reflexivity]. }
  destruct Dec as [D|D].
  - destruct (sound_new_any _ _ _ _ _ Hwf Hns D H) as [G1 G2]. split; [intros X; apply G1 in X; rewrite Hlen in X; apply X|].
    intros s sc Hl Hv Hp i t r Hi k. destruct (Conv s sc Hl Hv Hp) as [C1 [C2 [C3 C4]]].
    destruct (G2 s (uni_of sc) C1 C2) with (i := i) (t := t) (r := r) as [_ G3]; [|assumption|].
    + apply strict_allowed; [|assumption]. apply Forall_map. apply Forall_forall. cbn. lia.
    + destruct (G3 k) as [q [Q1 Q2]]. exists q. split; [exact Q1|apply C4; exact Q2].
  - destruct (sound_legacy_any _ _ _ _ _ Hwf Hns D H) as [G1 G2]. split; [intros X; apply G1 in X; rewrite Hlen in X; apply X|].
    intros s sc Hl Hv Hp i t r Hi k. destruct (Conv s sc Hl Hv Hp) as [C1 [C2 [C3 C4]]].
    destruct (G2 s (uni_of sc) C1 C2) with (i := i) (t := t) (r := r) as [_ G3]; [|assumption|].
    + apply strict_allowed; [|assumption]. apply Forall_map. rewrite Forall_forall in *. intros x Hx. cbn. destruct (Hw x Hx) as [_ [_ [_ [_ W5]]]]. lia.
    + destruct (G3 k) as [q [Q1 Q2]]. exists q. split; [exact Q1|apply C4; exact Q2].
Qed.
