(** Proofs about the probabilistic CAN analysis. *)
From Coq Require Import Reals Lra ZArith List Bool Arith Lia Permutation.
From Verif Require Import Base ModelCAN SpecCAN ProofCAN ModelCANProb SpecCANProb.
Import ListNotations.
Local Open Scope R_scope.

(** ** sums *)
Lemma rsum_cons {A} (f : A -> R) x l : rsum f (x :: l) = f x + rsum f l.
Proof. reflexivity. Qed.
Lemma rsum_nil {A} (f : A -> R) : rsum f [] = 0.
Proof. reflexivity. Qed.
Lemma rsum_app {A} (f : A -> R) a b : rsum f (a ++ b) = rsum f a + rsum f b.
Proof. induction a as [|x a IH]; cbn [app]; rewrite ?rsum_nil, ?rsum_cons; [lra|]. rewrite IH. lra. Qed.
Lemma rsum_ext {A} (f g : A -> R) l : (forall x, In x l -> f x = g x) -> rsum f l = rsum g l.
Proof. induction l as [|x l IH]; intros H; rewrite ?rsum_nil, ?rsum_cons; [reflexivity|]. rewrite (H x) by (left; reflexivity). f_equal. apply IH. intros y Hy. apply H. right. exact Hy. Qed.
Lemma rsum_plus {A} (f g : A -> R) l : rsum (fun x => f x + g x) l = rsum f l + rsum g l.
Proof. induction l as [|x l IH]; rewrite ?rsum_nil, ?rsum_cons; [lra|]. rewrite IH. lra. Qed.
Lemma rsum_scal {A} c (f : A -> R) l : rsum (fun x => c * f x) l = c * rsum f l.
Proof. induction l as [|x l IH]; rewrite ?rsum_nil, ?rsum_cons; [lra|]. rewrite IH. lra. Qed.
Lemma rsum_zero {A} (f : A -> R) l : (forall x, In x l -> f x = 0) -> rsum f l = 0.
Proof. induction l as [|x l IH]; intros H; rewrite ?rsum_nil, ?rsum_cons; [reflexivity|]. rewrite (H x) by (left; reflexivity). rewrite IH; [lra|]. intros y Hy. apply H. right. exact Hy. Qed.
Lemma rsum_le {A} (f g : A -> R) l : (forall x, In x l -> f x <= g x) -> rsum f l <= rsum g l.
Proof. induction l as [|x l IH]; intros H; rewrite ?rsum_nil, ?rsum_cons; [lra|]. assert (f x <= g x) by (apply H; left; reflexivity). assert (rsum f l <= rsum g l) by (apply IH; intros y Hy; apply H; right; exact Hy). lra. Qed.
Lemma rsum_nonneg {A} (f : A -> R) l : (forall x, In x l -> 0 <= f x) -> 0 <= rsum f l.
Proof. intros H. rewrite <- (rsum_zero (fun _ : A => 0) l) by reflexivity. apply rsum_le. exact H. Qed.
Lemma rsum_perm {A} (f : A -> R) a b : Permutation a b -> rsum f a = rsum f b.
Proof. intros P. induction P as [|x a b P IH|x y a|a b c P1 IH1 P2 IH2]; rewrite ?rsum_cons; [reflexivity|rewrite IH; reflexivity|lra|congruence]. Qed.
Lemma rsum_map {A B} (f : B -> R) (g : A -> B) l : rsum f (map g l) = rsum (fun x => f (g x)) l.
Proof. induction l as [|x l IH]; cbn [map]; rewrite ?rsum_cons; [reflexivity|]. rewrite IH. reflexivity. Qed.
Lemma rsum_flat {A B} (f : B -> R) (g : A -> list B) l : rsum f (flat_map g l) = rsum (fun x => rsum f (g x)) l.
Proof. induction l as [|x l IH]; [reflexivity|]. cbn [flat_map]. rewrite rsum_app, IH. reflexivity. Qed.
Lemma rsum_swap {A B} (f : A -> B -> R) l l' : rsum (fun x => rsum (f x) l') l = rsum (fun y => rsum (fun x => f x y) l) l'.
Proof.
  induction l as [|x l IH]; [symmetry; apply rsum_zero; reflexivity|]. rewrite rsum_cons, IH, <- rsum_plus. reflexivity.
Qed.
Lemma rsum_filter {A} (f : A -> R) (p : A -> bool) l : rsum f (filter p l) = rsum (fun x => if p x then f x else 0) l.
Proof. induction l as [|x l IH]; [reflexivity|]. cbn [filter]. rewrite rsum_cons. destruct (p x); rewrite ?rsum_cons, IH; lra. Qed.

(** sums over 0, ..., n-1 *)
Definition nsum (f : nat -> R) (n : nat) : R := rsum f (seq 0 n).
Lemma nsum_S f n : nsum f (S n) = nsum f n + f n.
Proof. unfold nsum. rewrite seq_S, rsum_app. cbn. lra. Qed.
Lemma nsum_ext f g n : (forall i, (i < n)%nat -> f i = g i) -> nsum f n = nsum g n.
Proof. intros H. apply rsum_ext. intros i Hi. apply in_seq in Hi. apply H. lia. Qed.
Lemma nsum_le f g n : (forall i, (i < n)%nat -> f i <= g i) -> nsum f n <= nsum g n.
Proof. intros H. apply rsum_le. intros i Hi. apply in_seq in Hi. apply H. lia. Qed.
Lemma nsum_nonneg f n : (forall i, (i < n)%nat -> 0 <= f i) -> 0 <= nsum f n.
Proof. intros H. apply rsum_nonneg. intros i Hi. apply in_seq in Hi. apply H. lia. Qed.
Lemma nsum_plus f g n : nsum (fun i => f i + g i) n = nsum f n + nsum g n.
Proof. apply rsum_plus. Qed.
Lemma nsum_scal c f n : nsum (fun i => c * f i) n = c * nsum f n.
Proof. apply rsum_scal. Qed.
Lemma nsum_zero f n : (forall i, (i < n)%nat -> f i = 0) -> nsum f n = 0.
Proof. intros H. apply rsum_zero. intros i Hi. apply in_seq in Hi. apply H. lia. Qed.
Lemma nsum_swap (f : nat -> nat -> R) n k : nsum (fun i => nsum (f i) k) n = nsum (fun j => nsum (fun i => f i j) n) k.
Proof. apply rsum_swap. Qed.
Lemma nsum_split f a n : nsum f (a + n) = nsum f a + nsum (fun i => f (a + i)%nat) n.
Proof. induction n as [|n IH]; [rewrite Nat.add_0_r; unfold nsum at 3; cbn; lra|]. rewrite Nat.add_succ_r, !nsum_S, IH. lra. Qed.
Lemma nsum_mono f a n : (forall i, 0 <= f i) -> (a <= n)%nat -> nsum f a <= nsum f n.
Proof. intros H L. replace n with (a + (n - a))%nat by lia. rewrite nsum_split. pose proof (nsum_nonneg (fun i => f (a + i)%nat) (n - a) (fun i _ => H _)). lra. Qed.
Lemma nsum_one f n k : (k < n)%nat -> (forall i, (i < n)%nat -> i <> k -> f i = 0) -> nsum f n = f k.
Proof.
  intros L H. induction n as [|n IH]; [lia|]. rewrite nsum_S. destruct (Nat.eq_dec n k) as [->|N].
  - rewrite nsum_zero; [lra|]. intros i Hi. apply H; lia.
  - rewrite IH; [rewrite (H n) by lia; lra|lia|]. intros i Hi. apply H. lia.
Qed.
Lemma nsum_f_R0 f n : nsum f (S n) = sum_f_R0 f n.
Proof. induction n as [|n IH]; [unfold nsum; cbn; lra|]. rewrite nsum_S, IH. reflexivity. Qed.

(** ** the Poisson distribution *)
Lemma poisson_nonneg lam k : 0 <= lam -> 0 <= poisson lam k.
Proof.
  intros H. unfold poisson, Rdiv. repeat apply Rmult_le_pos; [left; apply exp_pos|apply pow_le; exact H|left; apply Rinv_0_lt_compat, INR_fact_lt_0].
Qed.
Lemma poisson_pos lam k : 0 < lam -> 0 < poisson lam k.
Proof.
  intros H. unfold poisson, Rdiv. repeat apply Rmult_lt_0_compat; [apply exp_pos|apply pow_lt; exact H|apply Rinv_0_lt_compat, INR_fact_lt_0].
Qed.
Lemma poisson_0 lam : poisson lam 0 = exp (- lam).
Proof. unfold poisson. cbn. lra. Qed.

Lemma poisson_mass lam n : 0 <= lam -> nsum (poisson lam) n <= 1.
Proof.
  intros H. destruct n as [|n]; [unfold nsum; cbn; lra|].
  assert (E : nsum (poisson lam) (S n) = exp (- lam) * sum_f_R0 (fun i => / INR (fact i) * lam ^ i) n).
  { rewrite <- nsum_f_R0, <- nsum_scal. apply nsum_ext. intros i _. unfold poisson, Rdiv. lra. }
  rewrite E.
  assert (L : sum_f_R0 (fun i => / INR (fact i) * lam ^ i) n <= exp lam).
  { unfold exp. destruct (exist_exp lam) as [l Hl]. cbn. apply sum_incr; [exact Hl|]. intros k. apply Rmult_le_pos; [left; apply Rinv_0_lt_compat, INR_fact_lt_0|apply pow_le; exact H]. }
  apply Rle_trans with (exp (- lam) * exp lam); [apply Rmult_le_compat_l; [left; apply exp_pos|exact L]|].
  rewrite <- exp_plus. replace (- lam + lam) with 0 by lra. rewrite exp_0. lra.
Qed.

(** convolution *)
Definition conv (f g : nat -> R) (y : nat) : R := nsum (fun x => f x * g (y - x)%nat) (S y).

Lemma poisson_conv a b y : conv (poisson a) (poisson b) y = poisson (a + b) y.
Proof.
  unfold conv. rewrite nsum_f_R0. unfold poisson at 3. replace (- (a + b)) with (- a + - b) by lra. rewrite exp_plus, binomial.
  transitivity (exp (- a) * exp (- b) / INR (fact y) * sum_f_R0 (fun i => C y i * a ^ i * b ^ (y - i)) y); [|unfold Rdiv; lra].
  rewrite scal_sum. apply sum_eq. intros i Hi. unfold poisson, C.
  pose proof (INR_fact_neq_0 i). pose proof (INR_fact_neq_0 (y - i)). pose proof (INR_fact_neq_0 y). field. auto.
Qed.

Definition shift (j : nat) (h : nat -> R) (x : nat) : R := if Nat.leb j x then h (x - j)%nat else 0.

Lemma conv_ext f f' g g' y : (forall x, (x <= y)%nat -> f x = f' x) -> (forall x, (x <= y)%nat -> g x = g' x) -> conv f g y = conv f' g' y.
Proof. intros H1 H2. apply nsum_ext. intros i Hi. rewrite H1, H2 by lia. reflexivity. Qed.
Lemma conv_plus f f' g y : conv (fun x => f x + f' x) g y = conv f g y + conv f' g y.
Proof. unfold conv. rewrite <- nsum_plus. apply nsum_ext. intros i _. lra. Qed.
Lemma conv_nsum (f : nat -> nat -> R) n g y : conv (fun x => nsum (fun j => f j x) n) g y = nsum (fun j => conv (f j) g y) n.
Proof.
  unfold conv. rewrite nsum_swap. apply nsum_ext. intros x _. rewrite Rmult_comm, <- nsum_scal. apply nsum_ext. intros j _. lra.
Qed.
Lemma conv_scal c f g y : conv (fun x => c * f x) g y = c * conv f g y.
Proof. unfold conv. rewrite <- nsum_scal. apply nsum_ext. intros i _. lra. Qed.
Lemma conv_shift j h g y : conv (shift j h) g y = shift j (conv h g) y.
Proof.
  unfold conv, shift. destruct (Nat.leb_spec j y) as [L|L].
  - replace (S y) with (j + S (y - j))%nat by lia. rewrite nsum_split. rewrite nsum_zero.
    + rewrite Rplus_0_l. apply nsum_ext. intros i Hi. destruct (Nat.leb_spec j (j + i)); [|lia]. replace (j + i - j)%nat with i by lia. replace (y - (j + i))%nat with (y - j - i)%nat by lia. reflexivity.
    + intros i Hi. destruct (Nat.leb_spec j i); [lia|lra].
  - apply nsum_zero. intros i Hi. destruct (Nat.leb_spec j i); [lia|lra].
Qed.
Lemma conv_nonneg f g y : (forall x, 0 <= f x) -> (forall x, 0 <= g x) -> 0 <= conv f g y.
Proof. intros H1 H2. apply nsum_nonneg. intros i _. apply Rmult_le_pos; auto. Qed.

Lemma conv_mass f g M : (forall x, 0 <= f x) -> (forall n, nsum g n <= 1) -> nsum (conv f g) M <= nsum f M.
Proof.
  intros Hf Hg.
  assert (E : nsum (conv f g) M = nsum (fun x => f x * nsum g (M - x)) M).
  { clear Hf Hg. induction M as [|M IH]; [reflexivity|]. rewrite nsum_S, IH.
    transitivity (nsum (fun x => f x * nsum g (M - x)) (S M) + conv f g M).
    - rewrite nsum_S, Nat.sub_diag. change (nsum g 0) with 0. lra.
    - unfold conv. rewrite <- nsum_plus. apply nsum_ext. intros i Hi. replace (S M - i)%nat with (S (M - i)) by lia. rewrite nsum_S. lra. }
  rewrite E. apply nsum_le. intros i _. rewrite <- (Rmult_1_r (f i)) at 2. apply Rmult_le_compat_l; [apply Hf|apply Hg].
Qed.

(** ** first passage *)
Section Passage.
  Variable d : nat -> R.
  Hypothesis d_nonneg : forall i, 0 <= d i.

  (** no window before [n] suffices and window [n] sees [y] faults *)
  Fixpoint late (n : nat) : nat -> R :=
    match n with
    | O => poisson (d 0)
    | S k => conv (fun x => if Nat.ltb k x then late k x else 0) (poisson (d (S k)))
    end.
  Definition first (n : nat) : R := late n n.

  Lemma late_nonneg n : forall y, 0 <= late n y.
  Proof.
    induction n as [|n IH]; intros y; cbn [late]; [apply poisson_nonneg, d_nonneg|]. apply conv_nonneg.
    - intros x. destruct (Nat.ltb n x); [apply IH|lra].
    - intros x. apply poisson_nonneg, d_nonneg.
  Qed.
  Lemma late_small n y : (y < n)%nat -> late n y = 0.
  Proof.
    destruct n as [|n]; intros L; [lia|]. cbn [late]. unfold conv. apply nsum_zero. intros i Hi. destruct (Nat.ltb_spec n i); [lia|lra].
  Qed.
  Lemma first_nonneg n : 0 <= first n.
  Proof. apply late_nonneg. Qed.

  Lemma late_cut n x : late n x = (if Nat.ltb n x then late n x else 0) + shift n (fun z => if Nat.eqb z 0 then first n else 0) x.
  Proof.
    unfold shift. destruct (Nat.ltb_spec n x) as [L|L].
    - destruct (Nat.leb_spec n x); [|lia]. destruct (Nat.eqb_spec (x - n) 0); [lia|lra].
    - destruct (Nat.leb_spec n x) as [L'|L'].
      + assert (x = n) by lia. subst x. rewrite Nat.sub_diag. cbn. unfold first. lra.
      + rewrite late_small by exact L'. lra.
  Qed.

  Definition mean (n : nat) : R := nsum d (S n).

  Lemma decompose n : forall y, poisson (mean n) y = late n y + nsum (fun j => shift j (fun z => first j * poisson (mean n - mean j) z) y) n.
  Proof.
    induction n as [|n IH]; intros y.
    - cbn [late]. unfold mean. rewrite nsum_S. unfold nsum. cbn. rewrite Rplus_0_l, Rplus_0_r. reflexivity.
    - assert (M : mean (S n) = mean n + d (S n)) by (unfold mean; rewrite (nsum_S d (S n)); reflexivity).
      rewrite M, <- poisson_conv.
      rewrite (conv_ext (poisson (mean n)) (fun x => ((if Nat.ltb n x then late n x else 0) + shift n (fun z => if Nat.eqb z 0 then first n else 0) x) + nsum (fun j => shift j (fun z => first j * poisson (mean n - mean j) z) x) n) (poisson (d (S n))) (poisson (d (S n)))); [|intros x _; rewrite IH, <- late_cut; reflexivity|reflexivity].
      rewrite !conv_plus. cbn [late]. rewrite nsum_S. rewrite Rplus_assoc. f_equal. rewrite Rplus_comm. f_equal.
      + rewrite conv_nsum. apply nsum_ext. intros j Hj. rewrite conv_shift. unfold shift. destruct (Nat.leb j y); [|reflexivity].
        rewrite conv_scal, poisson_conv. f_equal. f_equal. lra.
      + rewrite conv_shift. unfold shift. destruct (Nat.leb n y); [|reflexivity]. unfold conv. rewrite (nsum_one _ _ 0%nat); [|lia|].
        * cbn. rewrite Nat.sub_0_r. f_equal. f_equal. lra.
        * intros i Hi Ni. destruct (Nat.eqb_spec i 0); [lia|lra].
  Qed.

  (** the recurrence of the code *)
  Lemma first_eq n : first n = poisson (mean n) n - nsum (fun j => first j * poisson (mean n - mean j) (n - j)) n.
  Proof.
    unfold first at 1. rewrite decompose. rewrite (nsum_ext (fun j => shift j _ n) (fun j => first j * poisson (mean n - mean j) (n - j))); [lra|].
    intros j Hj. unfold shift. destruct (Nat.leb_spec j n); [reflexivity|lia].
  Qed.

  Lemma mass n : forall M, (n <= M)%nat -> nsum first n + nsum (late n) M <= 1.
  Proof.
    induction n as [|n IH]; intros M L.
    - unfold nsum at 1. cbn [seq rsum fold_right]. rewrite Rplus_0_l. cbn [late]. apply poisson_mass, d_nonneg.
    - rewrite nsum_S. assert (E : nsum (late n) M = nsum (fun x => if Nat.ltb n x then late n x else 0) M + first n).
      { rewrite (nsum_ext (late n) (fun x => (if Nat.ltb n x then late n x else 0) + (if Nat.eqb x n then first n else 0))).
        - rewrite nsum_plus. f_equal. rewrite (nsum_one _ M n); [rewrite Nat.eqb_refl; reflexivity|lia|]. intros i _ Ni. destruct (Nat.eqb_spec i n); [lia|reflexivity].
        - intros i _. rewrite (late_cut n i) at 1. f_equal. unfold shift. destruct (Nat.leb_spec n i), (Nat.eqb_spec i n); try lia; try reflexivity; [subst; rewrite Nat.sub_diag; reflexivity|destruct (Nat.eqb_spec (i - n) 0); [lia|reflexivity]]. }
      assert (H : nsum (late (S n)) M <= nsum (fun x => if Nat.ltb n x then late n x else 0) M).
      { cbn [late]. apply conv_mass; [intros x; destruct (Nat.ltb n x); [apply late_nonneg|lra]|]. intros k. apply poisson_mass, d_nonneg. }
      specialize (IH M ltac:(lia)). lra.
  Qed.

  Lemma first_mass n : nsum first n <= 1.
  Proof. pose proof (mass n n (le_n n)). pose proof (nsum_nonneg (late n) n (fun i _ => late_nonneg n i)). lra. Qed.

  (** the event has positive probability: all faults can fall into the first window *)
  Lemma late_pos n y : 0 < d 0 -> (n <= y)%nat -> (0 < n -> n <= y)%nat -> 0 < late n y.
  Proof.
    intros D0. revert y. induction n as [|n IH]; intros y L _; cbn [late]; [apply poisson_pos; exact D0|].
    unfold conv. rewrite nsum_S. destruct (Nat.ltb_spec n y) as [Ly|Ly]; [|lia]. rewrite Nat.sub_diag.
    assert (0 < late n y * poisson (d (S n)) 0) by (apply Rmult_lt_0_compat; [apply IH; lia|rewrite poisson_0; apply exp_pos]).
    assert (0 <= nsum (fun x => (if Nat.ltb n x then late n x else 0) * poisson (d (S n)) (y - x)) y).
    { apply nsum_nonneg. intros i _. apply Rmult_le_pos; [destruct (Nat.ltb n i); [apply late_nonneg|lra]|apply poisson_nonneg, d_nonneg]. }
    lra.
  Qed.
  Lemma first_pos n : 0 < d 0 -> 0 < first n.
  Proof. intros H. apply late_pos; [exact H|lia|lia]. Qed.

  (** ** the enumeration of the sequences *)
  Definition is_late (n y : nat) (l : list nat) : Prop :=
    length l = S n /\ total l = y /\ forall j, (j < n)%nat -> (j < total (firstn (S j) l))%nat.

  Fixpoint enum (n y : nat) : list (list nat) :=
    match n with
    | O => [[y]]
    | S k => flat_map (fun s => map (fun l => l ++ [(y - s)%nat]) (enum k s)) (filter (fun s => Nat.ltb k s) (seq 0 (S y)))
    end.

  Lemma total_app a b : total (a ++ b) = (total a + total b)%nat.
  Proof. unfold total. induction a as [|x a IH]; cbn; [reflexivity|]. rewrite IH. lia. Qed.

  Lemma enum_in n : forall y l, In l (enum n y) <-> is_late n y l.
  Proof.
    induction n as [|n IH]; intros y l; cbn [enum].
    - unfold is_late. split.
      + intros [<-|[]]. split; [reflexivity|]. split; [cbn; lia|intros j Hj; lia].
      + intros [L [T _]]. destruct l as [|x [|z l]]; cbn in L; try lia. left. unfold total in T. cbn in T. f_equal. lia.
    - rewrite in_flat_map. split.
      + intros [s [Hs Hl]]. apply filter_In in Hs. destruct Hs as [Hs Hns]. apply in_seq in Hs. apply Nat.ltb_lt in Hns.
        apply in_map_iff in Hl. destruct Hl as [l' [<- Hl']]. apply IH in Hl'. destruct Hl' as [L [T J]]. unfold is_late.
        rewrite app_length, total_app, L, T. cbn [length total fold_right]. split; [lia|]. split; [unfold total; cbn; lia|].
        intros j Hj. rewrite firstn_app. destruct (Nat.eq_dec j n) as [->|N].
        * rewrite firstn_all2 by lia. rewrite total_app, T. lia.
        * replace (S j - length l')%nat with 0%nat by lia. cbn [firstn]. rewrite app_nil_r. apply J. lia.
      + intros [L [T J]]. destruct (exists_last (l := l)) as [l' [a E]]; [destruct l; [cbn in L; lia|discriminate]|]. subst l.
        rewrite app_length in L. cbn in L. rewrite total_app in T. unfold total at 2 in T. cbn in T.
        exists (total l'). split.
        * apply filter_In. split; [apply in_seq; lia|]. apply Nat.ltb_lt. specialize (J n ltac:(lia)). rewrite firstn_app in J.
          rewrite firstn_all2 in J by lia. replace (S n - length l')%nat with 0%nat in J by lia. cbn [firstn] in J. rewrite app_nil_r in J. exact J.
        * apply in_map_iff. exists l'. split; [f_equal; f_equal; lia|]. apply IH. split; [lia|]. split; [reflexivity|].
          intros j Hj. specialize (J j ltac:(lia)). rewrite firstn_app in J. replace (S j - length l')%nat with 0%nat in J by lia. cbn [firstn] in J. rewrite app_nil_r in J. exact J.
  Qed.

  Lemma nodup_flat {A B} (g : A -> list B) (inv : B -> A) l : NoDup l -> (forall x, In x l -> NoDup (g x)) -> (forall x y, In x l -> In y (g x) -> inv y = x) -> NoDup (flat_map g l).
  Proof.
    induction l as [|x l IH]; intros N G I; cbn; [constructor|]. inversion N as [|? ? N1 N2]; subst.
    assert (H1 : NoDup (g x)) by (apply G; left; reflexivity).
    assert (H2 : NoDup (flat_map g l)) by (apply IH; [exact N2|intros; apply G; right; assumption|intros; apply I; [right|]; assumption]).
    assert (H3 : forall b, In b (g x) -> ~ In b (flat_map g l)).
    { intros b Hb H. apply in_flat_map in H. destruct H as [x' [Hx' Hb']]. pose proof (I x b (or_introl eq_refl) Hb). pose proof (I x' b (or_intror Hx') Hb'). congruence. }
    clear - H1 H2 H3. induction (g x) as [|b r IH]; cbn; [exact H2|]. inversion H1; subst. constructor.
    - intros H. apply in_app_or in H. destruct H as [H|H]; [contradiction|]. exact (H3 b (or_introl eq_refl) H).
    - apply IH; [assumption|]. intros c Hc. apply H3. right. exact Hc.
  Qed.

  Lemma enum_nodup n : forall y, NoDup (enum n y).
  Proof.
    induction n as [|n IH]; intros y; cbn [enum]; [constructor; [intros []|constructor]|].
    apply nodup_flat with (inv := fun l => total (removelast l)).
    - apply NoDup_filter, seq_NoDup.
    - intros s _. apply FinFun.Injective_map_NoDup; [|apply IH]. intros a b E. apply app_inj_tail in E. tauto.
    - intros s l _ Hl. apply in_map_iff in Hl. destruct Hl as [l' [<- Hl']]. rewrite removelast_last. apply enum_in in Hl'. apply Hl'.
  Qed.

  Lemma weight_snoc l a : forall i, weight d i (l ++ [a]) = weight d i l * poisson (d (i + length l)%nat) a.
  Proof.
    induction l as [|x l IH]; intros i; cbn; [rewrite Nat.add_0_r; lra|]. rewrite IH. replace (S i + length l)%nat with (i + S (length l))%nat by lia. lra.
  Qed.

  Lemma enum_weight n : forall y, rsum (weight d 0) (enum n y) = late n y.
  Proof.
    induction n as [|n IH]; intros y; cbn [enum late]; [cbn; lra|].
    rewrite rsum_flat, rsum_filter. unfold conv. unfold nsum. apply rsum_ext. intros s _. destruct (Nat.ltb n s); [|lra].
    rewrite rsum_map, <- IH, Rmult_comm, <- rsum_scal. apply rsum_ext. intros l Hl. apply enum_in in Hl. destruct Hl as [L _].
    rewrite weight_snoc, L. cbn [plus]. lra.
  Qed.

  Lemma first_prob n : prob_first d n (first n).
  Proof.
    exists (enum n n). split; [apply enum_nodup|]. split; [intros l; apply enum_in|]. rewrite enum_weight. reflexivity.
  Qed.
  Lemma prob_first_unique n p : prob_first d n p -> p = first n.
  Proof.
    intros [L [N [I ->]]]. unfold first. rewrite <- enum_weight. apply rsum_perm. apply NoDup_Permutation; [exact N|apply enum_nodup|].
    intros l. rewrite I, enum_in. reflexivity.
  Qed.
End Passage.

(** ** get_prob_poisson *)
Lemma poisson_log lam k a : 0 < lam -> fold_left (fun prob i => madd prob (mlog (lam / INR i))) (seq 1 k) (Some a) =
  Some (a + ln (lam ^ k / INR (fact k))).
Proof.
  intros H. induction k as [|k IH].
  - cbn. f_equal. replace (1 / 1) with 1 by lra. rewrite ln_1. lra.
  - rewrite seq_S, fold_left_app, IH. cbn [fold_left madd plus]. unfold mlog.
    assert (P : 0 < INR (S k)) by (apply lt_0_INR; lia). assert (Q : 0 < lam / INR (S k)) by (apply Rdiv_lt_0_compat; assumption).
    destruct (Rle_lt_dec (lam / INR (S k)) 0) as [X|X]; [lra|]. f_equal. rewrite Rplus_assoc. f_equal.
    assert (F : 0 < INR (fact k)) by apply INR_fact_lt_0.
    rewrite <- ln_mult; [|apply Rdiv_lt_0_compat; [apply pow_lt; exact H|exact F]|exact Q]. f_equal.
    change (fact (S k)) with (S k * fact k)%nat. rewrite mult_INR. cbn [pow]. field. split; lra.
Qed.

Lemma madd_none (f : nat -> option R) l : fold_left (fun prob i => madd prob (f i)) l None = None.
Proof. induction l as [|x l IH]; [reflexivity|]. cbn [fold_left madd]. exact IH. Qed.

Lemma get_poisson_spec k len rate : 0 <= rate * len -> get_prob_poisson k len rate = poisson (rate * len) k.
Proof.
  intros H. unfold get_prob_poisson. cbv zeta. set (lam := rate * len) in *. destruct (Rle_lt_dec lam 0) as [Z|P].
  - assert (E : lam = 0) by lra. rewrite E. destruct k as [|k].
    + cbn. unfold poisson. cbn. replace (-1 * 0) with 0 by lra. rewrite Ropp_0, exp_0. lra.
    + cbn [seq fold_left]. unfold mlog at 2. replace (0 / INR 1) with 0 by (cbn; lra). destruct (Rle_lt_dec 0 0) as [_|X]; [|lra]. cbn [madd].
      rewrite (madd_none (fun i => mlog (0 / INR i))). cbn [mexp]. unfold poisson. rewrite pow_i by lia. unfold Rdiv. lra.
  - rewrite poisson_log by exact P. cbn [mexp]. rewrite exp_plus, exp_ln by (apply Rdiv_lt_0_compat; [apply pow_lt; exact P|apply INR_fact_lt_0]).
    unfold poisson. replace (-1 * lam) with (- lam) by lra. unfold Rdiv. lra.
Qed.

(** ** the loop *)
Section Loop.
  Variable b : canbus.
  Variable ms : list cmsg.
  Variable m : cmsg.
  Variable mfr : R.
  Hypothesis WB : wf_bus b.
  Hypothesis WM : forall x, In x ms -> wf_msg x.
  Hypothesis Wm : wf_msg m.
  Hypothesis rate : 0 <= mfr.

  Definition win (j : nat) : Z := wctt b ms m (Z.of_nat j).

  Lemma win_nonneg j : (0 <= win j)%Z.
  Proof.
    unfold win. destruct (wctt_ok b ms m (Z.of_nat j) WB WM ltac:(lia) _ (le_n _)) as [_ [W _]].
    assert (0 <= transfer_delay b m)%Z; [|lia]. unfold transfer_delay, max_framesize. destruct WB as [T _]. destruct Wm as [L _].
    assert (0 <= (33 + 8 * cm_length m) / 4)%Z by (apply Z.div_pos; lia). nia.
  Qed.
  Lemma win_mono i j : (i <= j)%nat -> in_time m (win j) -> (win i <= win j)%Z.
  Proof. intros L H. apply wctt_monotone; [exact WB|exact WM|lia|exact H]. Qed.
  Lemma in_time_down i j : (i <= j)%nat -> in_time m (win j) -> in_time m (win i).
  Proof. intros L H. pose proof (win_mono i j L H). unfold in_time in *. lia. Qed.

  (** beyond the last tolerated number of faults the windows are taken to be constant *)
  Definition cap (N j : nat) : Z := win (Nat.min j N).
  Definition dd (N : nat) : nat -> R := parts mfr (cap N).

  Lemma dd_nonneg N : in_time m (win N) -> forall i, 0 <= dd N i.
  Proof.
    intros H i. unfold dd, parts, cap. destruct i as [|i].
    - apply Rmult_le_pos; [exact rate|]. apply IZR_le, win_nonneg.
    - apply Rmult_le_pos; [exact rate|]. apply IZR_le. pose proof (win_mono (Nat.min i N) (Nat.min (S i) N) ltac:(lia) (in_time_down (Nat.min (S i) N) N (Nat.le_min_r _ _) H)). lia.
  Qed.
  Lemma mean_dd N n : mean (dd N) n = mfr * IZR (cap N n).
  Proof.
    unfold mean. induction n as [|n IH].
    - unfold nsum. cbn. lra.
    - rewrite nsum_S, IH. unfold dd, parts. rewrite <- Rmult_plus_distr_l, <- plus_IZR. f_equal. f_equal. lia.
  Qed.
  Lemma late_local (d d' : nat -> R) n : (forall i, (i <= n)%nat -> d i = d' i) -> forall y, late d n y = late d' n y.
  Proof.
    induction n as [|n IH]; intros H y; cbn [late]; [rewrite (H 0%nat) by lia; reflexivity|].
    rewrite (H (S n)) by lia. apply conv_ext; [|reflexivity]. intros x _. destruct (Nat.ltb n x); [|reflexivity]. apply IH. intros i Hi. apply H. lia.
  Qed.
  Lemma dd_parts N i : (i <= N)%nat -> dd N i = parts mfr win i.
  Proof.
    intros L. unfold dd, parts, cap. destruct i as [|i]; [rewrite Nat.min_0_l; reflexivity|]. rewrite !Nat.min_l by lia. reflexivity.
  Qed.
  Lemma first_dd N n : (n <= N)%nat -> first (dd N) n = first (parts mfr win) n.
  Proof. intros L. unfold first. apply late_local. intros i Hi. apply dd_parts. lia. Qed.

  (** the entry the loop computes, if the earlier entries are right *)
  Lemma entry_eq n vec : in_time m (win n) -> (forall i, (i < n)%nat -> nth i vec 0 = first (parts mfr win) i) ->
    get_prob_poisson n (IZR (win n)) mfr - br_error b ms m mfr vec n = first (parts mfr win) n.
  Proof.
    intros H V. rewrite <- (first_dd n n) by lia. rewrite first_eq, mean_dd. unfold cap. rewrite Nat.min_id.
    rewrite get_poisson_spec by (apply Rmult_le_pos; [exact rate|apply IZR_le, win_nonneg]). f_equal.
    assert (E : forall l a, fold_left (fun error i => error + nth i vec 0 * get_prob_poisson (n - i) (IZR (win n - win i)) mfr) l a =
      a + rsum (fun i => nth i vec 0 * get_prob_poisson (n - i) (IZR (win n - win i)) mfr) l).
    { induction l as [|x l IH]; intros a; cbn [fold_left]; rewrite ?rsum_nil, ?rsum_cons; [lra|]. rewrite IH. lra. }
    unfold br_error. fold (win n). change (fun error i => error + nth i vec 0 * get_prob_poisson (n - i) (IZR (win n - wctt b ms m (Z.of_nat i))) mfr)
      with (fun error i => error + nth i vec 0 * get_prob_poisson (n - i) (IZR (win n - win i)) mfr).
    rewrite E, Rplus_0_l. unfold nsum. apply rsum_ext. intros i Hi. apply in_seq in Hi. rewrite V by lia. rewrite first_dd by lia. f_equal.
    rewrite get_poisson_spec.
    - f_equal. rewrite mean_dd. unfold cap. rewrite Nat.min_l by lia. rewrite minus_IZR. lra.
    - apply Rmult_le_pos; [exact rate|]. apply IZR_le. pose proof (win_mono i n ltac:(lia) H). lia.
  Qed.

  Lemma entry_bounds n : in_time m (win n) -> 0 <= first (parts mfr win) n /\ nsum (first (parts mfr win)) (S n) <= 1.
  Proof.
    intros H. rewrite <- (first_dd n n) by lia. split; [apply first_nonneg, dd_nonneg, H|].
    rewrite (nsum_ext _ (first (dd n))) by (intros i Hi; symmetry; apply first_dd; lia). apply first_mass, dd_nonneg, H.
  Qed.
  Lemma entry_le1 n : in_time m (win n) -> first (parts mfr win) n <= 1.
  Proof.
    intros H. pose proof (entry_bounds n H) as [_ M]. rewrite nsum_S in M.
    assert (0 <= nsum (first (parts mfr win)) n); [|lra]. apply nsum_nonneg. intros i Hi. apply (entry_bounds i (in_time_down i n ltac:(lia) H)).
  Qed.

  (** the vectors that occur: the first entries, all of them in time *)
  Definition good (vec : list R) : Prop :=
    vec = map (first (parts mfr win)) (seq 0 (length vec)) /\ forall i, (i < length vec)%nat -> in_time m (win i).

  Lemma good_nth vec i : good vec -> (i < length vec)%nat -> nth i vec 0 = first (parts mfr win) i.
  Proof.
    intros [E _] L. rewrite E. rewrite (nth_indep _ 0 (first (parts mfr win) 0%nat)) by (rewrite map_length, seq_length; exact L).
    rewrite map_nth, seq_nth by exact L. reflexivity.
  Qed.
  Lemma good_snoc vec : good vec -> in_time m (win (length vec)) -> good (vec ++ [first (parts mfr win) (length vec)]).
  Proof.
    intros [E I] H. split.
    - rewrite app_length. cbn [length]. rewrite Nat.add_1_r, seq_S, map_app, <- E. reflexivity.
    - intros i Hi. rewrite app_length in Hi. cbn in Hi. destruct (Nat.eq_dec i (length vec)) as [->|N]; [exact H|]. apply I. lia.
  Qed.

  (** the loop extends a good vector until the limit or the first missed deadline *)
  Lemma loop_spec fuel : forall maxfaults vec, good vec ->
    match br_loop fuel b ms m mfr maxfaults (length vec) vec with
    | inl vec' => good vec' /\ (length vec <= length vec')%nat /\
        ((exists n, maxfaults = Some n /\ (n < length vec')%nat /\ (length vec' = S n \/ length vec' = length vec)) \/ ~ in_time m (win (length vec')))
    | inr f => f = false /\ (maxfaults = None -> in_time m (win (length vec + fuel - 1)) \/ fuel = O) /\ (forall n, maxfaults = Some n -> length vec + fuel <= n)%nat
    end.
  Proof.
    induction fuel as [|fuel IH]; intros maxfaults vec G; cbn [br_loop].
    - destruct (match maxfaults with None => true | Some n => Nat.leb (length vec) n end) eqn:C.
      + split; [reflexivity|]. split; [auto|]. intros n ->. apply Nat.leb_le in C. lia.
      + split; [exact G|]. split; [lia|]. left. destruct maxfaults as [n|]; [|discriminate]. apply Nat.leb_gt in C. exists n. split; [reflexivity|]. split; [exact C|]. right. reflexivity.
    - destruct (match maxfaults with None => true | Some n => Nat.leb (length vec) n end) eqn:C.
      + cbv zeta. fold (win (length vec)). destruct (Z.ltb_spec (cm_deadline m) (win (length vec) + cm_jitter m)) as [D|D].
        * split; [exact G|]. split; [lia|]. right. unfold in_time. lia.
        * rewrite entry_eq; [|exact D|intros i Hi; apply good_nth; assumption].
          destruct (Rle_lt_dec (first (parts mfr win) (length vec)) 1) as [X|X]; [|pose proof (entry_le1 _ D); lra].
          pose proof (good_snoc vec G D) as G'. specialize (IH maxfaults _ G').
          replace (length (vec ++ [first (parts mfr win) (length vec)])) with (S (length vec)) in IH by (rewrite app_length; cbn; lia).
          destruct (br_loop fuel b ms m mfr maxfaults (S (length vec)) (vec ++ [first (parts mfr win) (length vec)])) as [vec'|f].
          -- destruct IH as [A [B Cs]]. split; [exact A|]. split; [lia|]. destruct Cs as [[n [E [F Hn]]]|Cs]; [|right; exact Cs].
             left. exists n. split; [exact E|]. split; [exact F|]. left. subst maxfaults. apply Nat.leb_le in C. destruct Hn as [Hn|Hn]; lia.
          -- destruct IH as [A [B Cs]]. split; [exact A|]. split.
             ++ intros E. left. destruct (B E) as [B'|B']; [replace (length vec + S fuel - 1)%nat with (S (length vec) + fuel - 1)%nat by lia; exact B'|].
                subst fuel. replace (length vec + 1 - 1)%nat with (length vec) by lia. exact D.
             ++ intros n E. specialize (Cs n E). lia.
      + split; [exact G|]. split; [lia|]. left. destruct maxfaults as [n|]; [|discriminate]. apply Nat.leb_gt in C. exists n. split; [reflexivity|]. split; [exact C|]. right. reflexivity.
  Qed.

  Lemma br_sum_good k vec a : a = nsum (first (parts mfr win)) k -> vec = map (first (parts mfr win)) (seq k (length vec)) ->
    (forall i, (i < k + length vec)%nat -> in_time m (win i)) -> br_sum a vec = nsum (first (parts mfr win)) (k + length vec).
  Proof.
    revert k a. induction vec as [|x vec IH]; intros k a Ea Ev I; cbn [br_sum length].
    - rewrite Nat.add_0_r. exact Ea.
    - cbn in Ev. injection Ev as Ex Ev. assert (Es : a + x = nsum (first (parts mfr win)) (S k)) by (rewrite nsum_S, <- Ea, Ex; reflexivity).
      destruct (Rle_lt_dec (a + x) 1) as [_|X].
      + rewrite (IH (S k) _ Es Ev) by (intros i Hi; apply I; cbn; lia). f_equal. lia.
      + exfalso. assert (in_time m (win k)) by (apply I; cbn; lia). pose proof (entry_bounds k H) as [_ M]. lra.
  Qed.

  (** one query with a number of faults, from a good vector *)
  Lemma query_spec fuel n vec : good vec -> (n < fuel)%nat -> exists vec' p,
    br_prob_schedulable fuel b ms m mfr (Some n) vec = BrDone vec' p /\ good vec' /\
    ((in_time m (win n) /\ p = first (parts mfr win) n) \/ (~ in_time m (win n) /\ p = 0)).
  Proof.
    intros G F. unfold br_prob_schedulable. destruct (Nat.ltb_spec (S n) (length vec)) as [L|L].
    - exists vec, (nth n vec 0). split; [reflexivity|]. split; [exact G|]. left. split; [apply G; lia|]. apply good_nth; [exact G|lia].
    - pose proof (loop_spec fuel (Some n) vec G) as H.
      destruct (br_loop fuel b ms m mfr (Some n) (length vec) vec) as [vec'|f].
      + destruct H as [G' [L' C]]. unfold br_finish. destruct (Nat.leb_spec (S n) (length vec')) as [Ln|Ln].
        * assert (I : in_time m (win n)) by (apply G'; lia). rewrite (good_nth vec' n G') by lia. pose proof (entry_le1 n I) as U.
          destruct (Rle_lt_dec (first (parts mfr win) n) 1); [|lra]. do 2 eexists. split; [reflexivity|]. split; [exact G'|]. left. split; [exact I|]. apply Rmin_left. exact U.
        * destruct (Rle_lt_dec 0 1); [|lra]. do 2 eexists. split; [reflexivity|]. split; [exact G'|]. right. split.
          -- intros I. destruct C as [[n' [E [Ln' _]]]|C]; [injection E as <-; lia|]. apply C. apply (in_time_down _ n); [lia|exact I].
          -- apply Rmin_left. lra.
      + destruct H as [_ [_ Q]]. specialize (Q n eq_refl). lia.
  Qed.

  Lemma good_nil : good [].
  Proof. split; [reflexivity|]. cbn. intros i Hi. lia. Qed.

  (** the cumulative query of a fresh message *)
  Lemma cumulative_fresh fuel : (exists j, (j < fuel)%nat /\ ~ in_time m (win j)) -> exists N vec,
    br_prob_schedulable fuel b ms m mfr None [] = BrDone vec (nsum (first (parts mfr win)) N) /\ good vec /\ length vec = N /\
    (forall i, in_time m (win i) <-> (i < N)%nat).
  Proof.
    intros [j [Lj Hj]]. unfold br_prob_schedulable. pose proof (loop_spec fuel None [] good_nil) as H. cbn [length] in H.
    destruct (br_loop fuel b ms m mfr None 0 []) as [vec|f].
    - destruct H as [G [_ C]]. destruct C as [[n [E _]]|C]; [discriminate|]. exists (length vec), vec.
      assert (S : br_sum 0 vec = nsum (first (parts mfr win)) (length vec)).
      { rewrite (br_sum_good 0 vec 0); [reflexivity|unfold nsum; reflexivity|apply G|apply G]. }
      assert (M : nsum (first (parts mfr win)) (length vec) <= 1).
      { destruct (length vec) as [|k] eqn:E; [unfold nsum; cbn; lra|]. apply entry_bounds. apply G. lia. }
      split; [|split; [exact G|split; [reflexivity|]]].
      + unfold br_finish. rewrite S. destruct (Rle_lt_dec (nsum (first (parts mfr win)) (length vec)) 1); [|lra]. rewrite Rmin_left by exact M. reflexivity.
      + intros i. split; [|apply G]. intros I. destruct (le_lt_dec (length vec) i) as [X|X]; [|exact X]. exfalso. apply C. exact (in_time_down _ i X I).
    - exfalso. destruct H as [_ [H _]]. destruct (H eq_refl) as [X|X]; [|lia]. apply Hj. apply (in_time_down j (0 + fuel - 1)); [lia|exact X].
  Qed.
End Loop.
