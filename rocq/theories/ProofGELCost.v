(** Global scheduling by priority points is predictable: running jobs for less
    than their full cost delays no job.  Hence the bound for full costs holds
    for all costs. *)
From Coq Require Import ZArith List Bool Lia Permutation Sorted.
From Verif Require Import Base SpecUni SpecQPA SpecGlobal ProofUni ProofGreedy ProofGlobal ProofGlobalGreedy ProofGEL.
Import ListNotations.
Open Scope Z_scope.

(** A greedy global schedule for an arbitrary, possibly time-dependent priority key. *)
Section KeyGreedy.
  Variables (n m : nat) (s : jobseq) (key : nat -> job -> Z).

  Definition pick_key (t : nat) (f : job -> Z) : list job :=
    firstn m (isort (key t) (filter (greadyb s t f) (candidates n t))).
  Definition key_schedule : gschedule := ggreedy pick_key.

  Lemma key_schedule_eq : forall t, key_schedule t =
    firstn m (isort (key t) (filter (greadyb s t (fun j => gservice key_schedule j t)) (candidates n t))).
  Proof.
    intros. unfold key_schedule. rewrite ggreedy_ext; [reflexivity|]. intros t0 f g H. unfold pick_key. do 2 f_equal.
    apply filter_ext'. intros j. unfold greadyb. rewrite H. f_equal. apply forallb_ext'. intros k. rewrite H. reflexivity.
  Qed.

  Lemma key_schedule_valid : gvalid n m s key_schedule.
  Proof.
    intros t. rewrite key_schedule_eq. split; [apply firstn_le_length|].
    set (L := filter _ _). split.
    - apply NoDup_firstn. eapply Permutation_NoDup; [apply isort_perm|]. apply NoDup_filter. apply candidates_nodup.
    - intros j Hj. apply firstn_in in Hj. eapply Permutation_in in Hj; [|symmetry; apply isort_perm].
      apply filter_In in Hj. destruct Hj as [H1 H2]. apply in_candidates in H1. apply greadyb_iff in H2. tauto.
  Qed.

  Lemma key_schedule_policy : (forall h k, (h < n)%nat -> (k <= rel s h k)%nat) ->
    forall t j, (fst j < n)%nat -> gready s key_schedule j t -> ~ In j (key_schedule t) ->
      length (key_schedule t) = m /\ forall j', In j' (key_schedule t) -> key t j' <= key t j.
  Proof.
    intros Hidx t j Hj Hr Hn. rewrite key_schedule_eq in *. set (L := filter _ _) in *. set (I := isort (key t) L) in *.
    assert (Hin : In j I).
    { eapply Permutation_in; [apply isort_perm|]. apply filter_In. split; [|apply greadyb_iff; exact Hr].
      apply in_candidates. split; [assumption|]. destruct Hr as [Hr _]. specialize (Hidx (fst j) (snd j) Hj). lia. }
    assert (Hs : In j (skipn m I)).
    { rewrite <- (firstn_skipn m I) in Hin. apply in_app_or in Hin. destruct Hin; [contradiction|assumption]. }
    split.
    - rewrite firstn_length. destruct (Nat.le_gt_cases m (length I)); [lia|]. rewrite skipn_all2 in Hs by lia. destruct Hs.
    - intros j' Hj'. apply (sorted_split (key t) (firstn m I) (skipn m I)); try assumption.
      rewrite firstn_skipn. apply isort_sorted.
  Qed.
End KeyGreedy.

Section Predictable.
  Variables (n m : nat) (s : jobseq) (sc : gschedule) (C T Y : nat -> Z).
  Hypothesis Hpar : forall i, (i < n)%nat -> 0 <= C i /\ 1 <= T i.
  Hypothesis Hleg : forall i, (i < n)%nat -> forall k, Z.of_nat (arr s i k) + T i <= Z.of_nat (arr s i (S k)) /\
    rel s i k = arr s i k /\ Z.of_nat (cst s i k) <= C i.
  Hypothesis Hv : gvalid n m s sc.
  Let pp (j : job) := Z.of_nat (arr s (fst j) (snd j)) + Y (fst j).
  Hypothesis Hpol : forall t j, (fst j < n)%nat -> gready s sc j t -> ~ In j (sc t) ->
    length (sc t) = m /\ forall j', In j' (sc t) -> pp j' <= pp j.

  (** The same arrivals with full costs; ties are broken in favour of the jobs
      that run in the given schedule. *)
  Definition full : jobseq := JobSeq (arr s) (rel s) (fun i _ => Z.to_nat (C i)).
  Definition fkey (t : nat) (j : job) : Z := 2 * pp j + b2z (negb (gruns sc j t)).
  Definition fsc : gschedule := key_schedule n m full fkey.

  Lemma fsc_valid : gvalid n m full fsc.
  Proof. apply key_schedule_valid. Qed.

  Lemma idx_le_arr : forall i, (i < n)%nat -> forall k, (k <= arr s i k)%nat.
  Proof. intros i Hi. pose proof (Hpar i Hi). induction k; [lia|]. destruct (Hleg i Hi k) as [Ha _]. lia. Qed.

  Lemma fsc_key : forall t j, (fst j < n)%nat -> gready full fsc j t -> ~ In j (fsc t) ->
    length (fsc t) = m /\ forall j', In j' (fsc t) -> fkey t j' <= fkey t j.
  Proof.
    apply key_schedule_policy. intros h k Hh. cbn. destruct (Hleg h Hh k) as [_ [-> _]]. apply idx_le_arr. assumption.
  Qed.

  Lemma fsc_pol : forall t j, (fst j < n)%nat -> gready full fsc j t -> ~ In j (fsc t) ->
    length (fsc t) = m /\ forall j', In j' (fsc t) -> pp j' <= pp j.
  Proof.
    intros t j Hj Hr Hn. destruct (fsc_key t j Hj Hr Hn) as [H1 H2]. split; [exact H1|]. intros j' Hj'. specialize (H2 j' Hj').
    unfold fkey in H2. pose proof (b2z_range (negb (gruns sc j' t))). pose proof (b2z_range (negb (gruns sc j t))). lia.
  Qed.

  Let rem j t := Z.of_nat (cst s (fst j) (snd j)) - gservice sc j t.
  Let frem j t := C (fst j) - gservice fsc j t.

  Lemma arr_lt : forall i, (i < n)%nat -> forall a b, (a < b)%nat -> (arr s i a < arr s i b)%nat.
  Proof.
    intros i Hi a b H. pose proof (Hpar i Hi). induction H as [|b H IH].
    - destruct (Hleg i Hi a) as [Ha _]. lia.
    - destruct (Hleg i Hi b) as [Ha _]. lia.
  Qed.

  Lemma full_ready : forall i t k, (i < n)%nat -> (arr s i k <= t)%nat -> gservice fsc (i, k) t < C i ->
    exists h, (h <= k)%nat /\ gready full fsc (i, h) t.
  Proof.
    intros i t. induction k as [k IHk] using lt_wf_ind. intros Hi Ha Hs. pose proof (Hpar i Hi) as Hp.
    destruct (forallb (fun h => C i <=? gservice fsc (i, h) t) (seq 0 k)) eqn:Ef.
    - exists k. split; [lia|]. destruct (Hleg i Hi k) as [_ [Hr _]]. split; [cbn; lia|]. split; [cbn [fst snd full cst]; lia|].
      intros h Hh. cbn [fst snd] in *. unfold gcompleted. cbn [fst snd full cst].
      rewrite forallb_forall in Ef. specialize (Ef h ltac:(apply in_seq; lia)). apply Z.leb_le in Ef. lia.
    - apply not_true_iff_false in Ef. rewrite forallb_forall in Ef.
      assert (exists h, (h < k)%nat /\ gservice fsc (i, h) t < C i) as [h [Hh Hs']].
      { clear - Ef. induction k.
        - exfalso. apply Ef. intros x Hx. destruct Hx.
        - destruct (Z.leb_spec (C i) (gservice fsc (i, k) t)) as [L|L]; [|exists k; split; [lia|assumption]].
          destruct IHk as [h [Hh Hs]]; [|exists h; split; [lia|assumption]].
          intros Hall. apply Ef. intros x Hx. apply in_seq in Hx. destruct (Nat.eq_dec x k) as [->|Nx]; [apply Z.leb_le; exact L|].
          apply Hall. apply in_seq. lia. }
      destruct (IHk h Hh Hi) as [h' [Hh' Hr]]; [pose proof (arr_lt i Hi h k Hh); lia|assumption|].
      exists h'. split; [lia|assumption].
  Qed.

  Lemma sumf_lt_one : forall (f g : nat -> bool) k i, (i < k)%nat ->
    (forall x, (x < k)%nat -> f x = true -> g x = true) -> f i = false -> g i = true ->
    sumf (fun x => b2z (f x)) k < sumf (fun x => b2z (g x)) k.
  Proof.
    intros f g k i Hi H Hf Hg.
    enough (sumf (fun x => b2z (f x) + b2z (Nat.eqb x i)) k <= sumf (fun x => b2z (g x)) k) as G.
    { rewrite sumf_add, (sumf_single (fun x => b2z (Nat.eqb x i)) k i) in G; [rewrite Nat.eqb_refl in G; cbn [b2z] in G; lia|assumption|].
      intros x _ Hx. destruct (Nat.eqb_spec x i); [congruence|reflexivity]. }
    apply sumf_le. intros x Hx. destruct (Nat.eqb_spec x i) as [->|Nx].
    - rewrite Hf, Hg. cbn. lia.
    - destruct (f x) eqn:E; [rewrite (H x Hx E); cbn; lia|]. cbn [b2z]. pose proof (b2z_range (g x)). lia.
  Qed.

  Lemma rem_le : forall t j, (fst j < n)%nat -> rem j t <= frem j t.
  Proof.
    induction t as [|t IH]; intros j Hj.
    - unfold rem, frem. cbn. destruct (Hleg _ Hj (snd j)) as [_ [_ Hc]]. lia.
    - pose proof (IH j Hj) as IHj. unfold rem, frem in *. rewrite !gservice_step.
      destruct (gruns fsc j t) eqn:Ef; [|pose proof (b2z_range (gruns sc j t)); cbn [b2z]; lia].
      destruct (gruns sc j t) eqn:Es; [cbn; lia|]. cbn [b2z].
      destruct (Z.eq_dec (Z.of_nat (cst s (fst j) (snd j)) - gservice sc j t) (C (fst j) - gservice fsc j t)) as [Eq|Ne]; [|lia].
      exfalso. destruct (gruns_ready n m full fsc fsc_valid j t Ef) as [_ [R1 [R2 R3]]]. cbn [full rel cst] in R1, R2.
      assert (Hr : gready s sc j t).
      { split; [assumption|]. split; [pose proof (Hpar _ Hj); lia|]. intros k Hk. specialize (R3 k Hk). unfold gcompleted in *. cbn [full cst fst snd] in *.
        specialize (IH (fst j, k) Hj). cbn [fst snd] in IH. pose proof (Hpar _ Hj). lia. }
      destruct (Hpol t j Hj Hr) as [P1 P2]; [intros X; apply gruns_iff in X; congruence|].
      pose proof (busy_count n m s sc Hv t) as B1. pose proof (busy_count n m full fsc fsc_valid t) as B2.
      destruct (fsc_valid t) as [L _].
      enough (sumf (fun i => b2z (trun sc i t)) n < sumf (fun i => b2z (trun fsc i t)) n) by lia.
      apply (sumf_lt_one _ _ n (fst j)); [assumption| | |].
      + intros i Hi Ht. apply trun_iff in Ht. destruct Ht as [k' Hk']. 
        destruct (gruns_ready n m s sc Hv (i, k') t Hk') as [_ [Q1 [Q2 Q3]]]. cbn [fst snd] in Q1, Q2.
        pose proof (IH (i, k') Hi) as IHi. cbn [fst snd] in IHi.
        destruct (Hleg i Hi k') as [_ [Hrel _]].
        destruct (full_ready i t k' Hi ltac:(lia) ltac:(lia)) as [h [Hh Hrd]].
        apply trun_iff. exists h. destruct (gruns fsc (i, h) t) eqn:Eh; [reflexivity|exfalso].
        destruct (fsc_key t (i, h) Hi Hrd) as [_ Kk]; [intros X; apply gruns_iff in X; congruence|].
        specialize (Kk j ltac:(apply gruns_iff; exact Ef)). unfold fkey in Kk. rewrite Es in Kk. cbn [negb b2z] in Kk.
        specialize (P2 (i, k') ltac:(apply gruns_iff; exact Hk')). unfold pp in *. cbn [fst snd] in *.
        destruct (Nat.eq_dec h k') as [->|Nh].
        * rewrite Hk' in Kk. cbn [negb b2z] in Kk. lia.
        * pose proof (arr_lt i Hi h k' ltac:(lia)). pose proof (b2z_range (negb (gruns sc (i, h) t))). lia.
      + destruct (trun sc (fst j) t) eqn:Et; [exfalso|reflexivity]. apply trun_iff in Et. destruct Et as [k' Hk'].
        destruct (gruns_ready n m s sc Hv (fst j, k') t Hk') as [_ [Q1 [Q2 Q3]]]. cbn [fst snd] in *.
        destruct Hr as [_ [H2 H3]]. destruct (Nat.lt_trichotomy k' (snd j)) as [Lk|[Lk|Lk]].
        * specialize (H3 k' Lk). unfold gcompleted in H3. cbn [fst snd] in H3. lia.
        * subst k'. rewrite <- surjective_pairing in Hk'. congruence.
        * specialize (Q3 (snd j) Lk). unfold gcompleted in Q3. cbn [fst snd] in Q3. rewrite <- surjective_pairing in Q3. lia.
      + apply trun_iff. exists (snd j). rewrite <- surjective_pairing. exact Ef.
  Qed.

  Lemma completes_no_later : forall j q, (fst j < n)%nat -> gcompleted full fsc j q -> gcompleted s sc j q.
  Proof.
    intros j q Hj H. unfold gcompleted in *. cbn [full cst] in H. pose proof (rem_le q j Hj) as R. unfold rem, frem in R.
    pose proof (Hpar _ Hj). lia.
  Qed.
End Predictable.

(** The bound for arbitrary costs. *)
Theorem gel_bound : forall (n m K : nat) (s : jobseq) (sc : gschedule) (C T Y X p : nat -> Z) (P : Z),
  0 < P ->
  (forall i, (i < n)%nat -> 0 <= C i <= T i /\ 1 <= T i /\ 0 <= Y i /\ p i * T i = P * C i) ->
  sumf p n <= P * Z.of_nat (S K) -> (S K <= m)%nat ->
  ((1 <= K)%nat -> forall i, (i < n)%nat -> 0 <= X i) ->
  (forall i A, (i < n)%nat -> NoDup A -> (forall j, In j A -> (j < n)%nat) -> (length A <= K)%nat ->
    zsum (map (fun j => p j * (Z.min (Y j) (T j) + X j)) A) + sumf (fun j => P * C j - p j * Z.min (Y j) (T j)) n
      < P * (Z.of_nat m * (X i + 1) + C i)) ->
  (forall i, (i < n)%nat -> forall k, Z.of_nat (arr s i k) + T i <= Z.of_nat (arr s i (S k)) /\
    rel s i k = arr s i k /\ Z.of_nat (cst s i k) <= C i) ->
  gvalid n m s sc ->
  (forall t j, (fst j < n)%nat -> gready s sc j t -> ~ In j (sc t) ->
    length (sc t) = m /\ forall j', In j' (sc t) ->
      Z.of_nat (arr s (fst j') (snd j')) + Y (fst j') <= Z.of_nat (arr s (fst j) (snd j)) + Y (fst j)) ->
  forall j, (fst j < n)%nat -> responds s sc j (Y (fst j) + X (fst j) + C (fst j)).
Proof.
  intros n m K s sc C T Y X p P HP Hpar HU HK HX Hcomp Hleg Hv Hpol j Hj.
  assert (Hp' : forall i, (i < n)%nat -> 0 <= C i /\ 1 <= T i) by (intros i Hi; specialize (Hpar i Hi); lia).
  destruct (gel_full_cost n m K (full s C) (fsc n m s sc C Y) C T Y X p P HP Hpar HU HK HX Hcomp) with (j := j) as [q [Hq Hc]].
  - intros i Hi k. cbn. destruct (Hleg i Hi k) as [H1 [H2 _]]. split; [assumption|]. split; [assumption|]. specialize (Hpar i Hi). lia.
  - apply fsc_valid.
  - intros t j' Hj' Hr Hn. exact (fsc_pol n m s sc C T Y Hp' Hleg t j' Hj' Hr Hn).
  - assumption.
  - exists q. cbn in Hq. split; [lia|]. exact (completes_no_later n m s sc C T Y Hp' Hleg Hv Hpol j q Hj Hc).
Qed.

(** The bound of Devi and Anderson for arbitrary costs. *)
Theorem da_bound : forall (n m K : nat) (s : jobseq) (sc : gschedule) (C T p : nat -> Z) (P x Bd : Z),
  0 < P ->
  (forall i, (i < n)%nat -> 0 <= C i <= T i /\ 1 <= T i /\ p i * T i = P * C i) ->
  sumf p n <= P * Z.of_nat (S K) -> (S K <= m)%nat -> 0 <= x ->
  (forall A A0, NoDup A -> (forall j, In j A -> (j < n)%nat) -> NoDup A0 -> incl A0 A -> (length A <= K)%nat -> (length A0 <= K - 1)%nat ->
    zsum (map (fun j => P * C j) A) + zsum (map (fun j => p j * x) A0) <= Bd) ->
  (forall i, (i < n)%nat -> Bd < P * (Z.of_nat m * (x + 1) + C i)) ->
  (forall i, (i < n)%nat -> forall k, Z.of_nat (arr s i k) + T i <= Z.of_nat (arr s i (S k)) /\
    rel s i k = arr s i k /\ Z.of_nat (cst s i k) <= C i) ->
  gvalid n m s sc ->
  (forall t j, (fst j < n)%nat -> gready s sc j t -> ~ In j (sc t) ->
    length (sc t) = m /\ forall j', In j' (sc t) ->
      Z.of_nat (arr s (fst j') (snd j')) + T (fst j') <= Z.of_nat (arr s (fst j) (snd j)) + T (fst j)) ->
  forall j, (fst j < n)%nat -> responds s sc j (T (fst j) + x + C (fst j)).
Proof.
  intros n m K s sc C T p P x Bd HP Hpar HU HK Hx HB1 HB2 Hleg Hv Hpol j Hj.
  assert (Hp' : forall i, (i < n)%nat -> 0 <= C i /\ 1 <= T i) by (intros i Hi; specialize (Hpar i Hi); lia).
  destruct (da_full_cost n m K (full s C) (fsc n m s sc C T) C T T (fun _ => x) p P HP) with (x := x) (Bd := Bd) (j := j) as [q [Hq Hc]]; try assumption.
  - intros i Hi. specialize (Hpar i Hi). lia.
  - intros. assumption.
  - intros i Hi k. cbn. destruct (Hleg i Hi k) as [H1 [H2 _]]. split; [assumption|]. split; [assumption|]. specialize (Hpar i Hi). lia.
  - apply fsc_valid.
  - intros t j' Hj' Hr Hn. exact (fsc_pol n m s sc C T T Hp' Hleg t j' Hj' Hr Hn).
  - reflexivity.
  - reflexivity.
  - exists q. cbn in Hq. split; [lia|]. exact (completes_no_later n m s sc C T T Hp' Hleg Hv Hpol j q Hj Hc).
Qed.
