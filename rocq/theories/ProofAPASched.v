(** From an allocation of processor shares to schedules, and back. *)
From Coq Require Import NArith ZArith QArith List Bool Lia Arith Permutation.
From Verif Require Import Base SpecUni SpecQPA SpecAPAFeas ProofUni ProofMatch ProofColor.
Import ListNotations.
Open Scope Z_scope.

Lemma sumf_at_most_one (p : nat -> bool) N : (forall c c', p c = true -> p c' = true -> c = c') -> sumf (fun c => b2z (p c)) N <= 1.
Proof.
  intros H. induction N as [|N IH]; cbn [sumf]; [lia|]. destruct (p N) eqn:E; cbn [b2z]; [|lia].
  rewrite (sumf_zero (fun c => b2z (p c)) N); [lia|]. intros k Hk. destruct (p k) eqn:Ek; [|reflexivity]. specialize (H k N Ek E). lia.
Qed.

Lemma sumf_periodic F K a b : (1 <= K)%nat -> sumf (fun d => F ((K * a + d) mod K)%nat) (K * b) = Z.of_nat b * sumf F K.
Proof.
  intros HK. induction b as [|b IH]; [rewrite Nat.mul_0_r; reflexivity|].
  replace (K * S b)%nat with (K * b + K)%nat by lia. rewrite sumf_split, IH.
  rewrite (sumf_ext (fun k => F ((K * a + (K * b + k)) mod K)%nat) F); [lia|]. intros k Hk. f_equal.
  replace (K * a + (K * b + k))%nat with (k + (a + b) * K)%nat by lia. rewrite Nat.mod_add by lia. apply Nat.mod_small. exact Hk.
Qed.

(** the last index at which [f] is at most q *)
Fixpoint latest (f : nat -> nat) (q k : nat) : option nat :=
  if (f k <=? q)%nat then Some k else match k with O => None | S k' => latest f q k' end.

Lemma latest_sound f q : forall k j, latest f q k = Some j -> (f j <= q)%nat.
Proof.
  induction k as [|k IH]; cbn; intros j.
  - destruct (Nat.leb_spec (f O) q); [intros E; injection E as <-; lia|discriminate].
  - destruct (Nat.leb_spec (f (S k)) q); [intros E; injection E as <-; lia|apply IH].
Qed.

Lemma latest_complete f q j : forall k, (j <= k)%nat -> (f j <= q)%nat -> (forall i, (j < i)%nat -> (q < f i)%nat) -> latest f q k = Some j.
Proof.
  induction k as [|k IH]; intros H1 H2 H3; cbn.
  - assert (j = O) by lia. subst. destruct (Nat.leb_spec (f O) q); [reflexivity|lia].
  - destruct (Nat.eq_dec j (S k)) as [->|NE]; [destruct (Nat.leb_spec (f (S k)) q); [reflexivity|lia]|].
    destruct (Nat.leb_spec (f (S k)) q) as [X|X]; [specialize (H3 (S k)); lia|]. apply IH; [lia|exact H2|exact H3].
Qed.

Lemma arr_mono (f : nat -> nat) T : 1 <= T -> (forall k, Z.of_nat (f k) + T <= Z.of_nat (f (S k))) -> forall k l, (k <= l)%nat -> Z.of_nat (f k) + Z.of_nat (l - k) * T <= Z.of_nat (f l).
Proof.
  intros HT H k l L. induction L as [|l L IH]; [rewrite Nat.sub_diag; lia|]. specialize (H l). replace (S l - k)%nat with (S (l - k)) by lia. rewrite Nat2Z.inj_succ. nia.
Qed.

(** ** Accepted: the schedule of a plan *)
Section Plan.
Variables (K n m : nat) (P : nat -> nat -> option nat) (ts : list etask) (afs : list (list nat)) (s : jobseq).
Hypothesis HK : (1 <= K)%nat.
Hypothesis PP : proper n m P.
Hypothesis Hn : n = length ts.
Hypothesis wf : forall i e, nth_error ts i = Some e -> 1 <= e_period e /\ e_deadline e = e_period e /\ 0 <= e_cost e.
Hypothesis rows : forall i e, nth_error ts i = Some e -> sumf (granted K P i) m * e_period e = Z.of_nat K * e_cost e.
Hypothesis inaff : forall k c i, (k < K)%nat -> P k c = Some i -> exists af, nth_error afs i = Some af /\ In c af.
Hypothesis LG : legal_edf ts s.

Definition share (i t : nat) : Z := sumf (fun c => b2z (is_task i (P (t mod K)%nat c))) m.
Definition cnt (i a t : nat) : Z := sumf (fun d => share i (a + d)%nat) (t - a).

Definition plan_sched : aschedule := fun t c =>
  match P (t mod K)%nat c with
  | None => None
  | Some i => match latest (arr s i) (t / K)%nat (t / K)%nat with
              | None => None
              | Some k => if cnt i (K * arr s i k)%nat t <? Z.of_nat (K * cst s i k)%nat then Some (i, k) else None
              end
  end.

Lemma legal_at i e k : nth_error ts i = Some e -> Z.of_nat (arr s i k) + e_period e <= Z.of_nat (arr s i (S k)) /\ rel s i k = arr s i k /\ Z.of_nat (cst s i k) <= e_cost e.
Proof.
  intros H. assert (X : nth_error (map (fun e => Promise (e_cost e) (e_period e) 0) ts) i = Some (Promise (e_cost e) (e_period e) 0)) by (rewrite nth_error_map, H; reflexivity).
  destruct (LG i _ X k) as [A [B [C D]]]. cbn in *. lia.
Qed.

Lemma cnt_step i a t : (a <= t)%nat -> cnt i a (S t) = cnt i a t + share i t.
Proof. intros H. unfold cnt. replace (S t - a)%nat with (S (t - a)) by lia. cbn [sumf]. replace (a + (t - a))%nat with t by lia. reflexivity. Qed.

Lemma cnt_early i a t : (t <= a)%nat -> cnt i a t = 0.
Proof. intros H. unfold cnt. replace (t - a)%nat with O by lia. reflexivity. Qed.

Lemma share_nonneg i t : 0 <= share i t.
Proof. apply sumf_nonneg. intros; apply b2z_range. Qed.

Lemma plan_iff t c i k : plan_sched t c = Some (i, k) <->
  P (t mod K)%nat c = Some i /\ latest (arr s i) (t / K)%nat (t / K)%nat = Some k /\ cnt i (K * arr s i k)%nat t < Z.of_nat (K * cst s i k)%nat.
Proof.
  unfold plan_sched. destruct (P (t mod K)%nat c) as [i'|]; [|split; [discriminate|intros [X _]; discriminate]].
  destruct (latest (arr s i') (t / K)%nat (t / K)%nat) as [k'|] eqn:L.
  - destruct (Z.ltb_spec (cnt i' (K * arr s i' k')%nat t) (Z.of_nat (K * cst s i' k')%nat)) as [X|X].
    + split; [intros E; injection E as <- <-; auto|]. intros [E1 [E2 E3]]. injection E1 as ->. rewrite E2 in L. injection L as <-. reflexivity.
    + split; [discriminate|]. intros [E1 [E2 E3]]. injection E1 as ->. rewrite E2 in L. injection L as <-. lia.
  - split; [discriminate|]. intros [E1 [E2 E3]]. injection E1 as ->. congruence.
Qed.

Lemma aruns_iff sc j t c : aruns sc j t c = true <-> sc t c = Some j.
Proof. unfold aruns. destruct (sc t c) as [j'|]; [|split; discriminate]. destruct (job_eqb_spec j' j) as [->|N]; split; congruence. Qed.

Lemma started_after t i k : latest (arr s i) (t / K)%nat (t / K)%nat = Some k -> (K * arr s i k <= t)%nat.
Proof. intros H. apply latest_sound in H. pose proof (Nat.mul_div_le t K ltac:(lia)). nia. Qed.

Lemma plan_service_le i k t : aservice m plan_sched (i, k) t <= cnt i (K * arr s i k)%nat t.
Proof.
  induction t as [|t IH]; [unfold aservice; cbn [sumf]; rewrite cnt_early by lia; lia|].
  unfold aservice in *. cbn [sumf]. destruct (le_lt_dec (K * arr s i k) t) as [G|G].
  - rewrite cnt_step by exact G. assert (sumf (fun c => b2z (aruns plan_sched (i, k) t c)) m <= share i t); [|lia].
    apply sumf_le. intros c _. destruct (aruns plan_sched (i, k) t c) eqn:E; [|apply b2z_range]. apply aruns_iff, plan_iff in E. destruct E as [E _].
    rewrite E. cbn [is_task]. rewrite Nat.eqb_refl. cbn. lia.
  - rewrite (sumf_zero (fun c => b2z (aruns plan_sched (i, k) t c))).
    + rewrite cnt_early in * by lia. lia.
    + intros c _. destruct (aruns plan_sched (i, k) t c) eqn:E; [|reflexivity]. exfalso. apply aruns_iff, plan_iff in E. destruct E as [_ [E _]]. apply started_after in E. lia.
Qed.

Lemma plan_valid : avalid m afs (refine K s) plan_sched.
Proof.
  intros t c [i k] H. pose proof H as H0. apply plan_iff in H. destruct H as [E1 [E2 E3]]. cbn [fst snd refine rel cst].
  destruct (pr_range _ _ _ PP _ _ _ E1) as [Hi Hc]. split; [exact Hc|].
  split; [apply (inaff (t mod K)%nat); [apply Nat.mod_upper_bound; lia|exact E1]|].
  rewrite Hn in Hi. destruct (nth_error_lt_Some _ ts i Hi) as [e He]. destruct (legal_at i e k He) as [_ [R _]]. rewrite R.
  split; [apply started_after; exact E2|]. split; [pose proof (plan_service_le i k t); lia|].
  intros c' k' H'. apply plan_iff in H'. destruct H' as [E1' _]. eapply pr_once; eassumption.
Qed.

Lemma latest_window i e k t : nth_error ts i = Some e -> (K * arr s i k <= t)%nat -> Z.of_nat t < Z.of_nat K * (Z.of_nat (arr s i k) + e_period e) ->
  latest (arr s i) (t / K)%nat (t / K)%nat = Some k.
Proof.
  intros He H1 H2. destruct (wf i e He) as [W1 _].
  assert (MO : forall k l, (k <= l)%nat -> Z.of_nat (arr s i k) + Z.of_nat (l - k) * e_period e <= Z.of_nat (arr s i l)).
  { apply arr_mono; [exact W1|]. intros k0. apply (legal_at i e k0 He). }
  assert (A : (arr s i k <= t / K)%nat) by (apply Nat.div_le_lower_bound; lia).
  apply latest_complete.
  - specialize (MO O k ltac:(lia)). rewrite Nat.sub_0_r in MO. nia.
  - exact A.
  - intros l Hl. specialize (MO k l ltac:(lia)). assert (Z.of_nat (t / K) < Z.of_nat (arr s i k) + e_period e); [|nia].
    pose proof (Nat.mul_div_le t K ltac:(lia)). nia.
Qed.

Lemma plan_progress i e k t : nth_error ts i = Some e -> (K * arr s i k <= t)%nat -> Z.of_nat t <= Z.of_nat K * (Z.of_nat (arr s i k) + e_period e) ->
  Z.min (Z.of_nat (K * cst s i k)) (cnt i (K * arr s i k)%nat t) <= aservice m plan_sched (i, k) t.
Proof.
  intros He L. induction L as [|t L IH]; intros H2.
  - rewrite cnt_early by lia. assert (0 <= aservice m plan_sched (i, k) (K * arr s i k)); [|lia].
    unfold aservice. apply sumf_nonneg. intros u _. apply sumf_nonneg. intros; apply b2z_range.
  - specialize (IH ltac:(lia)). rewrite cnt_step by exact L. unfold aservice in *. cbn [sumf].
    assert (NN : 0 <= sumf (fun c => b2z (aruns plan_sched (i, k) t c)) m) by (apply sumf_nonneg; intros; apply b2z_range).
    destruct (Z.lt_ge_cases (cnt i (K * arr s i k)%nat t) (Z.of_nat (K * cst s i k)%nat)) as [G|G].
    + assert (E : sumf (fun c => b2z (aruns plan_sched (i, k) t c)) m = share i t); [|lia].
      apply sumf_ext. intros c _. f_equal. apply eq_true_iff_eq. rewrite aruns_iff, plan_iff, is_task_iff. split; [tauto|]. intros E. split; [exact E|]. split; [|exact G].
      eapply latest_window; [exact He|exact L|lia].
    + pose proof (share_nonneg i t). lia.
Qed.

Lemma cnt_full i e k : nth_error ts i = Some e -> cnt i (K * arr s i k)%nat (K * arr s i k + K * Z.to_nat (e_period e))%nat = Z.of_nat K * e_cost e.
Proof.
  intros He. destruct (wf i e He) as [W1 _]. unfold cnt. replace (K * arr s i k + K * Z.to_nat (e_period e) - K * arr s i k)%nat with (K * Z.to_nat (e_period e))%nat by lia.
  unfold share. rewrite (sumf_periodic (fun r => sumf (fun c => b2z (is_task i (P r c))) m) K (arr s i k)) by exact HK.
  rewrite sumf_swap. rewrite <- (rows i e He). unfold granted. rewrite Z2Nat.id by lia. lia.
Qed.

Lemma plan_meets : ameets m K ts s plan_sched.
Proof.
  intros [i k] e He. cbn [fst snd] in *. destruct (wf i e He) as [W1 [W2 W3]]. exists (K * arr s i k + K * Z.to_nat (e_period e))%nat. split; [lia|].
  cbn [refine cst]. destruct (legal_at i e k He) as [_ [_ C]].
  pose proof (plan_progress i e k (K * arr s i k + K * Z.to_nat (e_period e))%nat He ltac:(lia) ltac:(lia)) as PR. rewrite (cnt_full i e k He) in PR. nia.
Qed.
End Plan.
