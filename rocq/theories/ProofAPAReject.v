(** Rejected by the affinity feasibility test: no schedule of the synchronous
    periodic sequence meets all deadlines. *)
From Coq Require Import NArith ZArith QArith List Bool Lia Arith Permutation Lqa.
From Verif Require Import Base SpecUni SpecQPA ModelNative ModelLP SpecLP ModelAPAFeas SpecAPAFeas ProofLP ProofUni ProofMatch ProofColor ProofQPA ProofAPAFeas ProofAPASched ProofAPAAccept.
Import ListNotations.
Open Scope Z_scope.

Definition etask_of (t : ntask) : etask := ETask (n_wcet t) (n_period t) (n_deadline t).

(** all tasks release together, then periodically, and run for their full cost *)
Definition periodic (ts : ntaskset) : jobseq :=
  let per i := Z.to_nat (n_period (nth i ts dtask)) in
  JobSeq (fun i k => k * per i)%nat (fun i k => k * per i)%nat (fun i _ => Z.to_nat (n_wcet (nth i ts dtask))).

Lemma periodic_legal ts : (forall t, In t ts -> 1 <= n_wcet t /\ 1 <= n_period t) -> legal_edf (map etask_of ts) (periodic ts).
Proof.
  intros W i p H k. rewrite nth_error_map, nth_error_map in H. destruct (nth_error ts i) as [t|] eqn:E; [|discriminate]. cbn in H. injection H as <-.
  destruct (W t (nth_error_In _ _ E)) as [W1 W2]. cbn. rewrite (nth_error_nth _ _ _ E). lia.
Qed.

Section Valid.
Variables (m : nat) (afs : list (list nat)) (s : jobseq) (sc : aschedule).
Hypothesis V : avalid m afs s sc.

Lemma job_once j t : sumf (fun c => b2z (aruns sc j t c)) m <= 1.
Proof.
  apply sumf_at_most_one. intros c c' H1 H2. apply aruns_iff in H1, H2. destruct (V t c j H1) as [_ [_ [_ [_ X]]]]. symmetry. apply (X c' (snd j)). destruct j; exact H2.
Qed.

Lemma aservice_step j t : aservice m sc j (S t) = aservice m sc j t + sumf (fun c => b2z (aruns sc j t c)) m.
Proof. reflexivity. Qed.

Lemma aservice_le_time j t : aservice m sc j t <= Z.of_nat t.
Proof. induction t as [|t IH]; [unfold aservice; cbn; lia|]. rewrite aservice_step. pose proof (job_once j t). lia. Qed.

Lemma aservice_le_cost j t : aservice m sc j t <= Z.of_nat (cst s (fst j) (snd j)).
Proof.
  induction t as [|t IH]; [unfold aservice; cbn; lia|]. rewrite aservice_step. pose proof (job_once j t) as O.
  destruct (Z.eq_dec (sumf (fun c => b2z (aruns sc j t c)) m) 0) as [E|NZ]; [lia|].
  assert (X : exists c, (c < m)%nat /\ aruns sc j t c = true).
  { destruct (ex_lt_dec (aruns sc j t) m) as [X|X]; [exact X|]. exfalso. apply NZ. apply sumf_zero. intros k Hk. rewrite X by exact Hk. reflexivity. }
  destruct X as [c [_ Hc]]. apply aruns_iff in Hc. destruct (V t c j Hc) as [_ [_ [_ [X _]]]]. lia.
Qed.

Lemma aservice_mono j t u : (t <= u)%nat -> aservice m sc j t <= aservice m sc j u.
Proof. intros L. unfold aservice. apply sumf_mono; [exact L|]. intros k _. apply sumf_nonneg. intros; apply b2z_range. Qed.
End Valid.

Section Reject.
Variables (ts : ntaskset) (afs : affinities) (m K : nat) (sc : aschedule).
Hypothesis HK : (1 <= K)%nat.
Hypothesis W : Forall good ts.
Hypothesis IMP : forall t, In t ts -> n_deadline t = n_period t.
Hypothesis HL : length ts = length afs.
Hypothesis ND : forall af, In af afs -> NoDup af.
Let s := periodic ts.
Hypothesis V : avalid m afs (refine K s) sc.
Hypothesis MEET : ameets m K (map etask_of ts) s sc.

Lemma good_at i t : nth_error ts i = Some t -> 1 <= n_wcet t /\ 1 <= n_period t /\ n_deadline t = n_period t.
Proof. intros H. apply nth_error_In in H. pose proof (proj1 (Forall_forall _ _) W t H) as G. unfold good in G. specialize (IMP t H). lia. Qed.

Definition hyper : nat := Z.to_nat (prod ts).
Definition slots : nat := (K * hyper)%nat.
Definition njobs (t : ntask) : nat := (hyper / Z.to_nat (n_period t))%nat.

Lemma hyper_spec i t : nth_error ts i = Some t -> (njobs t * Z.to_nat (n_period t) = hyper)%nat /\ (1 <= njobs t)%nat /\ (1 <= hyper)%nat.
Proof.
  intros H. destruct (good_at i t H) as [G1 [G2 G3]]. pose proof (prod_pos ts W) as PPos. destruct (prod_div ts t W (nth_error_In _ _ H)) as [q Hq].
  assert (E : hyper = (Z.to_nat q * Z.to_nat (n_period t))%nat) by (unfold hyper; rewrite Hq; rewrite Z2Nat.inj_mul by nia; reflexivity).
  assert (J : njobs t = Z.to_nat q) by (unfold njobs; rewrite E; apply Nat.div_mul; lia). rewrite J, E. nia.
Qed.

Definition of_task (i t c : nat) : bool := match sc t c with Some j => Nat.eqb i (fst j) | None => false end.
Definition time_on (i c : nat) : Z := sumf (fun t => b2z (of_task i t c)) slots.

Lemma time_on_support i c : time_on i c <> 0 -> exists af, nth_error afs i = Some af /\ In c af /\ (c < m)%nat.
Proof.
  intros H. destruct (ex_lt_dec (fun t => of_task i t c) slots) as [[t [_ X]]|X].
  - unfold of_task in X. destruct (sc t c) as [j|] eqn:E; [|discriminate]. apply Nat.eqb_eq in X. subst i. destruct (V t c j E) as [Y [[af [Y1 Y2]] _]]. eauto.
  - exfalso. apply H. apply sumf_zero. intros k Hk. rewrite X by exact Hk. reflexivity.
Qed.

Lemma task_jobs i t u c : nth_error ts i = Some t -> (u < slots)%nat -> b2z (of_task i u c) = sumf (fun k => b2z (aruns sc (i, k) u c)) (njobs t).
Proof.
  intros Ht Hu. destruct (good_at i t Ht) as [G1 [G2 G3]]. destruct (hyper_spec i t Ht) as [H1 [H2 H3]]. unfold of_task. destruct (sc u c) as [[i' k']|] eqn:E.
  - cbn [fst]. destruct (Nat.eqb_spec i i') as [<-|NE].
    + assert (Hk : (k' < njobs t)%nat).
      { destruct (V u c _ E) as [_ [_ [R _]]]. cbn [fst snd refine rel] in R. unfold s, periodic in R. cbn [rel] in R. rewrite (nth_error_nth _ _ _ Ht) in R. unfold slots in Hu.
        destruct (le_lt_dec (njobs t) k') as [L|L]; [|exact L]. exfalso. assert (hyper <= k' * Z.to_nat (n_period t))%nat by nia. nia. }
      rewrite (sumf_point _ (fun _ => 0) (njobs t) k' 1 Hk).
      * rewrite sumf_zero by reflexivity. reflexivity.
      * intros v Hv. unfold aruns. rewrite E. destruct (job_eqb_spec (i, k') (i, v)) as [X|X]; [congruence|reflexivity].
      * unfold aruns. rewrite E. destruct (job_eqb_spec (i, k') (i, k')); [reflexivity|congruence].
    + symmetry. apply sumf_zero. intros k _. unfold aruns. rewrite E. destruct (job_eqb_spec (i', k') (i, k)) as [X|X]; [congruence|reflexivity].
  - symmetry. apply sumf_zero. intros k _. unfold aruns. rewrite E. reflexivity.
Qed.

Lemma job_full i t k : nth_error ts i = Some t -> (k < njobs t)%nat -> aservice m sc (i, k) slots = Z.of_nat K * n_wcet t.
Proof.
  intros Ht Hk. destruct (good_at i t Ht) as [G1 [G2 G3]]. destruct (hyper_spec i t Ht) as [H1 [H2 H3]].
  assert (C : Z.of_nat (cst (refine K s) i k) = Z.of_nat K * n_wcet t) by (cbn; rewrite (nth_error_nth _ _ _ Ht); lia).
  pose proof (aservice_le_cost m afs _ sc V (i, k) slots) as A. cbn [fst snd] in A. rewrite C in A.
  destruct (MEET (i, k) (etask_of t)) as [q [Q1 Q2]]; [cbn [fst]; rewrite nth_error_map, Ht; reflexivity|]. cbn [fst snd] in Q1, Q2. rewrite C in Q2.
  assert (q <= slots)%nat.
  { unfold s, periodic in Q1. cbn [arr e_deadline etask_of] in Q1. rewrite (nth_error_nth _ _ _ Ht) in Q1. rewrite G3 in Q1. unfold slots. rewrite <- H1.
    assert (Z.of_nat (S k * Z.to_nat (n_period t)) <= Z.of_nat (njobs t * Z.to_nat (n_period t))) by nia. nia. }
  pose proof (aservice_mono m sc (i, k) q slots H). lia.
Qed.

Lemma task_total i t : nth_error ts i = Some t -> sumf (time_on i) m = Z.of_nat (njobs t) * (Z.of_nat K * n_wcet t).
Proof.
  intros Ht. unfold time_on. rewrite sumf_swap.
  rewrite (sumf_ext _ (fun u => sumf (fun k => sumf (fun c => b2z (aruns sc (i, k) u c)) m) (njobs t))).
  - rewrite sumf_swap. rewrite (sumf_ext _ (fun _ => Z.of_nat K * n_wcet t)); [rewrite sumf_const; lia|]. intros k Hk. apply (job_full i t k Ht Hk).
  - intros u Hu. rewrite (sumf_swap (fun k c => b2z (aruns sc (i, k) u c))). apply sumf_ext. intros c _. apply (task_jobs i t u c Ht Hu).
Qed.

Lemma cpu_total c : sumf (fun i => time_on i c) (length ts) <= Z.of_nat slots.
Proof.
  unfold time_on. rewrite sumf_swap. assert (X : sumf (fun j => sumf (fun i => b2z (of_task i j c)) (length ts)) slots <= sumf (fun _ => 1) slots).
  { apply sumf_le. intros t _. apply sumf_at_most_one. intros i i'. unfold of_task. destruct (sc t c) as [j|]; [|discriminate]. rewrite !Nat.eqb_eq. congruence. }
  rewrite sumf_const in X. lia.
Qed.

Definition shares_of : fvar -> Q := fun v =>
  match nth_error ts (fst v) with
  | Some t => frac (time_on (fst v) (snd v)) (Z.of_nat (njobs t) * (Z.of_nat K * n_wcet t))
  | None => 0%Q
  end.

Lemma frac_div_le a b : 0 < b -> 0 <= a <= b -> (0 <= frac a b <= 1)%Q.
Proof.
  intros Hb Ha. unfold frac. assert (P : (0 < inject_Z b)%Q) by (change 0%Q with (inject_Z 0); rewrite <- Zlt_Qlt; lia). split.
  - apply Qle_shift_div_l; [exact P|]. rewrite Qmult_0_l. change 0%Q with (inject_Z 0). rewrite <- Zle_Qle. lia.
  - apply Qle_shift_div_r; [exact P|]. rewrite Qmult_1_l. rewrite <- Zle_Qle. lia.
Qed.

Lemma denominator_pos i t : nth_error ts i = Some t -> 0 < Z.of_nat (njobs t) * (Z.of_nat K * n_wcet t).
Proof. intros Ht. destruct (good_at i t Ht) as [G1 [G2 G3]]. destruct (hyper_spec i t Ht) as [H1 [H2 H3]]. nia. Qed.

Lemma time_on_nonneg i c : 0 <= time_on i c.
Proof. apply sumf_nonneg. intros; apply b2z_range. Qed.

Lemma capacity_eq (x : fvar -> Q) (D : Q) (z : nat -> Z) c : forall r i, (forall k t, nth_error r k = Some t -> (D * (n_util t * x ((i + k)%nat, c)) == inject_Z (z (i + k)%nat))%Q) ->
  (D * evaluate x (cpu_capacity i r c) == inject_Z (sumf (fun k => z (i + k)%nat) (length r)))%Q.
Proof.
  induction r as [|t r IH]; intros i H; cbn [length sumf cpu_capacity].
  - change (evaluate x []) with 0%Q. change (inject_Z 0) with 0%Q. apply Qmult_0_r.
  - change (sumf (fun k => z (i + k)%nat) (length r) + z (i + length r)%nat) with (sumf (fun k => z (i + k)%nat) (1 + length r)). rewrite sumf_split. cbn [sumf].
    rewrite inject_Z_plus. change (0 + z (i + 0)%nat) with (z (i + 0)%nat).
    rewrite (sumf_ext (fun k => z (i + (1 + k))%nat) (fun k => z (S i + k)%nat)) by (intros; f_equal; lia).
    assert (A := H O t eq_refl). rewrite Nat.add_0_r in *.
    assert (C : (D * evaluate x (cpu_capacity (S i) r c) == inject_Z (sumf (fun k => z (S i + k)%nat) (length r)))%Q).
    { apply IH. intros k t' Hk. replace (S i + k)%nat with (i + S k)%nat by lia. apply H. exact Hk. }
    unfold evaluate in *. cbn [fold_right fst snd]. rewrite <- A, <- C. ring.
Qed.

Lemma reject_feasible : feasible (apa_lp ts afs) shares_of.
Proof.
  apply apa_lp_meaning. split; [|split].
  - intros [i c]. unfold shares_of. cbn [fst snd]. destruct (nth_error ts i) as [t|] eqn:E; [|lra]. apply frac_div_le; [eapply denominator_pos; exact E|].
    split; [apply time_on_nonneg|]. destruct (Z.eq_dec (time_on i c) 0) as [Z0|NZ]; [rewrite Z0; pose proof (denominator_pos i t E); lia|].
    destruct (time_on_support i c NZ) as [af [_ [_ Hc]]]. rewrite <- (task_total i t E). apply (sumf_term_le (time_on i)); [exact Hc|intros; apply time_on_nonneg].
  - intros i af Haf NE. assert (Hi : (i < length ts)%nat) by (rewrite HL; eapply nth_error_Some_lt; exact Haf). destruct (nth_error_lt_Some _ ts i Hi) as [t Ht].
    rewrite eval_service. pose proof (denominator_pos i t Ht) as DP. set (D := Z.of_nat (njobs t) * (Z.of_nat K * n_wcet t)) in *.
    rewrite (rsum_ext _ _ (fun c => (/ inject_Z D) * inject_Z (time_on i c))%Q).
    + rewrite rsum_mul, <- inject_zsum. rewrite (zsum_support (time_on i) af m).
      * rewrite (task_total i t Ht). fold D. rewrite Qmult_comm. apply Qmult_inv_r. intros X. apply (inject_Z_injective D 0) in X. lia.
      * apply ND. eapply nth_error_In; exact Haf.
      * intros c Hc. destruct (time_on_support i c Hc) as [af' [H1 [H2 H3]]]. rewrite Haf in H1. injection H1 as <-. auto.
    + intros c _. unfold shares_of, frac, Qdiv. cbn [fst snd]. rewrite Ht. fold D. apply Qmult_comm.
  - intros c _ NT. pose proof (prod_pos ts W) as PPos. assert (SP : 0 < Z.of_nat slots) by (unfold slots, hyper; nia).
    assert (E : (inject_Z (Z.of_nat slots) * evaluate shares_of (cpu_capacity O ts c) == inject_Z (sumf (fun k => time_on (0 + k)%nat c) (length ts)))%Q).
    { apply (capacity_eq shares_of (inject_Z (Z.of_nat slots)) (fun i => time_on i c) c ts O). intros k t Ht. cbn [plus]. unfold shares_of. cbn [fst snd]. rewrite Ht.
      destruct (good_at k t Ht) as [G1 [G2 G3]]. destruct (hyper_spec k t Ht) as [H1 [H2 H3]]. unfold n_util, frac, slots. rewrite <- H1.
      rewrite !Nat2Z.inj_mul, Z2Nat.id by lia. rewrite !inject_Z_mult. field.
      repeat split; intros X; match type of X with (inject_Z ?a == 0)%Q => apply (inject_Z_injective a 0) in X; lia end. }
    cbn [plus] in E. pose proof (cpu_total c) as CT. rewrite Zle_Qle in CT. rewrite <- E in CT.
    apply (Qmult_le_l _ _ (inject_Z (Z.of_nat slots))); [change 0%Q with (inject_Z 0); rewrite <- Zlt_Qlt; exact SP|]. rewrite Qmult_1_r. exact CT.
Qed.
End Reject.

Lemma over_period ts afs m K sc i t : (1 <= K)%nat -> nth_error ts i = Some t -> 1 <= n_period t -> n_deadline t = n_period t -> n_period t < n_wcet t ->
  avalid m afs (refine K (periodic ts)) sc -> ~ ameets m K (map etask_of ts) (periodic ts) sc.
Proof.
  intros HK Ht HP HD HC V MEET. destruct (MEET (i, O) (etask_of t)) as [q [Q1 Q2]]; [cbn [fst]; rewrite nth_error_map, Ht; reflexivity|].
  cbn [fst snd] in Q1, Q2. pose proof (aservice_le_time m afs _ sc V (i, O) q) as A. cbn in Q1, Q2. rewrite (nth_error_nth _ _ _ Ht) in Q2. rewrite Nat2Z.inj_mul, Z2Nat.id in Q2 by lia. nia.
Qed.
