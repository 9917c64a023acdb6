(** Lemmas about the search for a compliant s: top-k sums, the binary search and
    the exact tracing algorithm. *)
From Coq Require Import ZArith QArith Qround Lqa List Bool Lia Permutation Sorted.
From Verif Require Import Base ModelTasks ProofTasks ModelTardiness.
Import ListNotations.
Open Scope Q_scope.

(** ** Sums *)
Lemma qs_cons : forall x l, qsum (x :: l) = x + qsum l.
Proof. reflexivity. Qed.

Lemma qs_app : forall A (f : A -> Q) a b, qsum (map f (a ++ b)) == qsum (map f a) + qsum (map f b).
Proof.
  induction a as [|x a IH]; intros b; cbn [app map].
  - change (qsum []) with 0. lra.
  - rewrite !qs_cons, IH. lra.
Qed.

Lemma qs_perm : forall A (f : A -> Q) a b, Permutation a b -> qsum (map f a) == qsum (map f b).
Proof. intros A f a b H. induction H; cbn [map]; rewrite ?qs_cons; lra. Qed.

Lemma qs_le : forall A (f g : A -> Q) l, (forall x, In x l -> f x <= g x) -> qsum (map f l) <= qsum (map g l).
Proof.
  induction l as [|x l IH]; intros H; [cbn; lra|]. cbn [map]. rewrite !qs_cons.
  pose proof (H x (or_introl eq_refl)). specialize (IH (fun y Hy => H y (or_intror Hy))). lra.
Qed.

Lemma qs_add : forall A (f g : A -> Q) l, qsum (map (fun x => f x + g x) l) == qsum (map f l) + qsum (map g l).
Proof. induction l as [|x l IH]; [cbn; lra|]. cbn [map]. rewrite !qs_cons. lra. Qed.

Lemma qs_mul : forall A (f : A -> Q) c l, qsum (map (fun x => f x * c) l) == qsum (map f l) * c.
Proof. induction l as [|x l IH]; [cbn; lra|]. cbn [map]. rewrite !qs_cons. lra. Qed.

Lemma qs_const : forall A (c : Q) (l : list A), qsum (map (fun _ => c) l) == inject_Z (Z.of_nat (length l)) * c.
Proof.
  induction l as [|x l IH]; [cbn [map length]; change (qsum []) with 0; change (inject_Z (Z.of_nat 0)) with 0; lra|]. cbn [map length]. rewrite qs_cons, IH, Nat2Z.inj_succ, <- Z.add_1_r, inject_Z_plus.
  change (inject_Z 1) with 1. lra.
Qed.

Lemma qs_nonneg : forall A (f : A -> Q) l, (forall x, In x l -> 0 <= f x) -> 0 <= qsum (map f l).
Proof.
  induction l as [|x l IH]; intros H; [cbn; lra|]. cbn [map]. rewrite qs_cons.
  pose proof (H x (or_introl eq_refl)). specialize (IH (fun y Hy => H y (or_intror Hy))). lra.
Qed.

Lemma qs_filter : forall A (f : A -> Q) (p : A -> bool) l, (forall x, In x l -> p x = false -> f x <= 0) ->
  qsum (map f l) <= qsum (map f (filter p l)).
Proof.
  induction l as [|x l IH]; intros H; [cbn; lra|]. cbn [map filter]. rewrite qs_cons.
  specialize (IH (fun y Hy => H y (or_intror Hy))). destruct (p x) eqn:E; cbn [map]; rewrite ?qs_cons; [lra|].
  specialize (H x (or_introl eq_refl) E). lra.
Qed.

Lemma qs_incl : forall A (f : A -> Q) a b, NoDup a -> incl a b -> (forall x, In x b -> 0 <= f x) ->
  qsum (map f a) <= qsum (map f b).
Proof.
  induction a as [|x a IH]; intros b Hn Hi Hp; cbn [map]; [apply qs_nonneg; assumption|].
  inversion Hn as [|? ? H1 H2]; subst. destruct (in_split x b (Hi x (or_introl eq_refl))) as [b1 [b2 ->]].
  rewrite (qs_perm _ f _ _ (Permutation_sym (Permutation_middle b1 b2 x))). cbn [map]. rewrite !qs_cons.
  specialize (IH (b1 ++ b2) H2). enough (qsum (map f a) <= qsum (map f (b1 ++ b2))) by lra. apply IH.
  - intros y Hy. specialize (Hi y (or_intror Hy)). apply in_app_or in Hi. apply in_or_app.
    destruct Hi as [Hi|[<-|Hi]]; [left; assumption|contradiction|right; assumption].
  - intros y Hy. apply Hp. apply in_app_or in Hy. apply in_or_app. destruct Hy; [left|right; right]; assumption.
Qed.

(** ** Largest k of a list *)
Definition val (lines : list (Q * Q)) (s : Q) (i : nat) : Q := icept lines i + slope lines i * s.

Definition index_set (n K : nat) (A : list nat) : Prop := NoDup A /\ (forall i, In i A -> (i < n)%nat) /\ length A = K.

Definition top_at (lines : list (Q * Q)) (s : Q) (A : list nat) : Prop :=
  forall i j, In i A -> (j < length lines)%nat -> ~ In j A -> val lines s j <= val lines s i.

Lemma min_exists : forall A (f : A -> Q) l, l <> [] -> exists x, In x l /\ forall y, In y l -> f x <= f y.
Proof.
  induction l as [|x l IH]; intros H; [congruence|]. destruct l as [|y l].
  - exists x. split; [left; reflexivity|]. intros z [<-|[]]. lra.
  - destruct IH as [z [Hz Hm]]; [congruence|]. destruct (Qlt_le_dec (f x) (f z)) as [L|L].
    + exists x. split; [left; reflexivity|]. intros w [<-|Hw]; [lra|]. specialize (Hm w Hw). lra.
    + exists z. split; [right; assumption|]. intros w [<-|Hw]; [lra|]. apply Hm. assumption.
Qed.

Lemma top_sum : forall lines s K A B, index_set (length lines) K A -> top_at lines s A -> index_set (length lines) K B ->
  qsum (map (val lines s) B) <= qsum (map (val lines s) A).
Proof.
  intros lines s K A B [A1 [A2 A3]] Ht [B1 [B2 B3]]. destruct A as [|a A'].
  - cbn in A3. subst K. destruct B; [lra|discriminate].
  - set (A := a :: A') in *. destruct (min_exists _ (val lines s) A) as [x [Hx Hm]]; [unfold A; congruence|].
    set (c := val lines s x) in *.
    enough (G : qsum (map (fun i => val lines s i + - c) B) <= qsum (map (fun i => val lines s i + - c) A)).
    { rewrite !qs_add, !qs_const, A3, B3 in G. lra. }
    eapply Qle_trans; [apply (qs_filter _ _ (fun i => existsb (Nat.eqb i) A))|].
    + intros i Hi Hf. assert (~ In i A) as Hn.
      { intros H. apply not_true_iff_false in Hf. apply Hf. apply existsb_exists. exists i. split; [assumption|apply Nat.eqb_refl]. }
      specialize (Ht x i Hx (B2 i Hi) Hn). fold c in Ht. lra.
    + apply qs_incl.
      * apply NoDup_filter. assumption.
      * intros i Hi. apply filter_In in Hi. destruct Hi as [_ Hi]. apply existsb_exists in Hi. destruct Hi as [j [Hj E]].
        apply Nat.eqb_eq in E. subst j. assumption.
      * intros i Hi. specialize (Hm i Hi). lra.
Qed.

Lemma values_index : forall lines s, values_at s lines = map (val lines s) (seq 0 (length lines)).
Proof.
  intros lines s. unfold values_at, val, icept, slope, line.
  rewrite <- (map_map (fun i => nth i lines (0, 0)) (fun l => fst l + snd l * s)). f_equal.
  clear. induction lines as [|l lines IH]; [reflexivity|]. cbn [length seq map nth]. f_equal. rewrite <- seq_shift, map_map. exact IH.
Qed.

Lemma index_complement : forall n A, NoDup A -> (forall i, In i A -> (i < n)%nat) ->
  Permutation (A ++ filter (fun i => negb (existsb (Nat.eqb i) A)) (seq 0 n)) (seq 0 n).
Proof.
  intros n A H1 H2. apply NoDup_Permutation.
  - assert (D : forall a b : list nat, NoDup a -> NoDup b -> (forall x, In x a -> ~ In x b) -> NoDup (a ++ b)).
    { induction a as [|x a IH]; intros b Ha Hb Hd; [assumption|]. cbn. inversion_clear Ha. constructor.
      - intros Hi. apply in_app_or in Hi. destruct Hi as [Hi|Hi]; [contradiction|]. apply (Hd x); [left; reflexivity|assumption].
      - apply IH; [assumption|assumption|]. intros y Hy. apply Hd. right. assumption. }
    apply D; [assumption|apply NoDup_filter, seq_NoDup|]. intros x Hx Hf. apply filter_In in Hf. destruct Hf as [_ Hf].
    apply negb_true_iff in Hf. apply not_true_iff_false in Hf. apply Hf. apply existsb_exists. exists x. split; [assumption|apply Nat.eqb_refl].
  - apply seq_NoDup.
  - intros x. rewrite in_app_iff, filter_In. split.
    + intros [H|[H _]]; [apply in_seq; specialize (H2 x H); lia|assumption].
    + intros H. destruct (existsb (Nat.eqb x) A) eqn:E; [|right; split; [assumption|reflexivity]].
      left. apply existsb_exists in E. destruct E as [y [Hy Ey]]. apply Nat.eqb_eq in Ey. subst y. assumption.
Qed.

Lemma nlargest_sum : forall lines s k A, index_set (length lines) (Z.to_nat k) A ->
  qsum (map (val lines s) A) <= qsum (nlargest k (values_at s lines)).
Proof.
  intros lines s k A [A1 [A2 A3]]. rewrite !qsum_total. unfold nlargest.
  rewrite <- A3, <- (map_length (val lines s) A).
  apply top_max with (rest := map (val lines s) (filter (fun i => negb (existsb (Nat.eqb i) A)) (seq 0 (length lines)))).
  - apply sort_desc_sorted.
  - rewrite <- map_app, <- sort_desc_perm, values_index. apply Permutation_map. apply index_complement; assumption.
Qed.

(** the k largest are the values of some index set *)
Lemma nlargest_witness : forall lines s k, (Z.to_nat k <= length lines)%nat ->
  exists A, index_set (length lines) (Z.to_nat k) A /\ qsum (nlargest k (values_at s lines)) == qsum (map (val lines s) A).
Proof.
  intros lines s k Hk.
  assert (Hp : Permutation (sort_desc (values_at s lines)) (map (val lines s) (seq 0 (length lines)))).
  { rewrite <- values_index. symmetry. apply sort_desc_perm. }
  destruct (Permutation_map_inv _ _ Hp) as [l [E P]].
  exists (firstn (Z.to_nat k) l). split.
  - assert (Hl : length l = length lines) by (rewrite <- (Permutation_length P), seq_length; reflexivity).
    assert (Hn : NoDup l) by (eapply Permutation_NoDup; [exact P|apply seq_NoDup]). split; [|split].
    + rewrite <- (firstn_skipn (Z.to_nat k) l) in Hn. clear - Hn. induction (firstn (Z.to_nat k) l) as [|x a IH]; [constructor|].
      cbn in Hn. inversion_clear Hn. constructor; [|apply IH; assumption]. intros Hi. apply H. apply in_or_app. left. assumption.
    + intros i Hi. assert (In i l) by (rewrite <- (firstn_skipn (Z.to_nat k) l); apply in_or_app; left; assumption).
      eapply Permutation_in in H; [|symmetry; exact P]. apply in_seq in H. lia.
    + rewrite firstn_length. lia.
  - unfold nlargest. rewrite E, firstn_map. reflexivity.
Qed.

(** ** Compliance *)
Definition compliant (m : Q) (K : nat) (S : Q) (lines : list (Q * Q)) (s : Q) : Prop :=
  0 <= s /\ forall A, index_set (length lines) K A -> S + qsum (map (val lines s) A) <= m * s.

Lemma M_compliant : forall m k S lines s, 0 <= s -> M_value m k S lines s <= 0 -> compliant (inject_Z m) (Z.to_nat (k - 1)) S lines s.
Proof. intros m k S lines s Hs HM. split; [assumption|]. intros A HA. pose proof (nlargest_sum lines s (k - 1) A HA). unfold M_value in HM. lra. Qed.

Lemma compliant_M : forall m k S lines s, (Z.to_nat (k - 1) <= length lines)%nat ->
  compliant (inject_Z m) (Z.to_nat (k - 1)) S lines s -> M_value m k S lines s <= 0.
Proof.
  intros m k S lines s Hk [_ H]. destruct (nlargest_witness lines s (k - 1) Hk) as [A [HA E]]. specialize (H A HA). unfold M_value. lra.
Qed.

Lemma M_ext : forall m k S lines a b, (Z.to_nat (k - 1) <= length lines)%nat -> a == b -> M_value m k S lines a == M_value m k S lines b.
Proof.
  intros m k S lines a b Hk E.
  assert (G : forall x y, x == y -> M_value m k S lines x <= M_value m k S lines y).
  { intros x y Exy. unfold M_value. destruct (nlargest_witness lines x (k - 1) Hk) as [A [HA EA]].
    pose proof (nlargest_sum lines y (k - 1) A HA) as L.
    assert (qsum (map (val lines x) A) <= qsum (map (val lines y) A)).
    { apply qs_le. intros i _. unfold val. rewrite Exy. lra. }
    assert (inject_Z m * x == inject_Z m * y) by (rewrite Exy; reflexivity). rewrite EA. lra. }
  apply Qle_antisym; apply G; [assumption|symmetry; assumption].
Qed.

Lemma qltb_iff : forall a b, qltb a b = true <-> a < b.
Proof.
  intros. unfold qltb. rewrite negb_true_iff. split.
  - intros H. destruct (Qlt_le_dec a b) as [L|L]; [assumption|]. apply Qle_bool_iff in L. congruence.
  - intros H. apply not_true_iff_false. rewrite Qle_bool_iff. lra.
Qed.

Lemma qltb_false : forall a b, qltb a b = false <-> b <= a.
Proof. intros. rewrite <- not_true_iff_false, qltb_iff. lra. Qed.

(** ** Binary search *)
Section Search.
  Variables (lines : list (Q * Q)) (m uc : Z) (S : Q).
  Let K := Z.to_nat (uc - 1).
  Hypothesis HK : (K <= length lines)%nat.
  Hypothesis Hm : (Z.of_nat K + 1 <= m)%Z.
  Hypothesis Hslope : forall i, (i < length lines)%nat -> 0 <= slope lines i <= 1.
  Let M := M_value m uc S lines.

  (** An upper bound on all intercepts. *)
  Lemma M_eventually : exists c, forall s, 0 <= s -> M s <= c - s.
  Proof.
    set (B := qsum (map (fun i => if Qle_bool 0 (icept lines i) then icept lines i else 0) (seq 0 (length lines)))).
    exists (S + B). intros s Hs. unfold M, M_value. destruct (nlargest_witness lines s (uc - 1) HK) as [A [[A1 [A2 A3]] E]]. rewrite E.
    assert (qsum (map (val lines s) A) <= qsum (map (fun i => (if Qle_bool 0 (icept lines i) then icept lines i else 0) + s) A)) as G.
    { apply qs_le. intros i Hi. unfold val. pose proof (Hslope i (A2 i Hi)).
      destruct (Qle_bool 0 (icept lines i)) eqn:Eb; [nra|].
      assert (icept lines i <= 0). { destruct (Qlt_le_dec 0 (icept lines i)) as [L|L]; [|assumption]. apply Qlt_le_weak, Qle_bool_iff in L. congruence. }
      nra. }
    rewrite qs_add, qs_const, A3 in G.
    assert (qsum (map (fun i => if Qle_bool 0 (icept lines i) then icept lines i else 0) A) <= B).
    { apply qs_incl; [assumption| |].
      - intros i Hi. apply in_seq. specialize (A2 i Hi). lia.
      - intros i _. destruct (Qle_bool 0 (icept lines i)) eqn:Eb; [apply Qle_bool_iff; assumption|lra]. }
    assert (inject_Z (Z.of_nat (Z.to_nat (uc - 1))) + 1 <= inject_Z m).
    { change 1 with (inject_Z 1). rewrite <- inject_Z_plus, <- Zle_Qle. exact Hm. }
    nra.
  Qed.

  (** M decreases by at least as much as s increases. *)
  Lemma M_decreasing : forall a b, 0 <= a -> a <= b -> M b <= M a - (b - a).
  Proof.
    intros a b Ha Hab. unfold M, M_value. destruct (nlargest_witness lines b (uc - 1) HK) as [A [HA E]]. rewrite E.
    pose proof (nlargest_sum lines a (uc - 1) A HA) as L. destruct HA as [A1 [A2 A3]].
    assert (qsum (map (val lines b) A) <= qsum (map (fun i => val lines a i + (b - a)) A)) as G.
    { apply qs_le. intros i Hi. unfold val. pose proof (Hslope i (A2 i Hi)). nra. }
    rewrite qs_add, qs_const, A3 in G.
    assert (inject_Z (Z.of_nat (Z.to_nat (uc - 1))) + 1 <= inject_Z m).
    { change 1 with (inject_Z 1). rewrite <- inject_Z_plus, <- Zle_Qle. exact Hm. }
    nra.
  Qed.

  Lemma bin_double_spec : forall fuel lo hi lo' hi', 0 <= lo -> lo <= hi -> 0 < hi -> (lo == 0 \/ 0 < M lo) ->
    bin_double fuel M lo hi = Some (lo', hi') -> 0 <= lo' /\ lo' <= hi' /\ M hi' <= 0 /\ (lo' == 0 \/ 0 < M lo').
  Proof.
    induction fuel; intros lo hi lo' hi' H1 H2 H3 H4 E; [discriminate|]. cbn [bin_double] in E.
    destruct (qltb 0 (M hi)) eqn:Eq.
    - apply qltb_iff in Eq. eapply IHfuel; [| | | |exact E]; [lra|nra|nra|right; assumption].
    - apply qltb_false in Eq. inversion E; subst. repeat split; try assumption.
  Qed.

  Lemma bin_double_total : exists N, forall fuel, (N <= fuel)%nat -> exists r, bin_double fuel M 0 1 = Some r.
  Proof.
    destruct M_eventually as [c Hc].
    assert (G : forall n lo hi, 1 <= hi -> c <= hi * inject_Z (2 ^ Z.of_nat n) ->
      forall fuel, (Datatypes.S n <= fuel)%nat -> exists r, bin_double fuel M lo hi = Some r).
    { induction n; intros lo hi H1 H2 fuel Hf; (destruct fuel; [lia|]); cbn [bin_double].
      - change (inject_Z (2 ^ Z.of_nat 0)) with 1 in H2. destruct (qltb 0 (M hi)) eqn:Eq; [|eexists; reflexivity].
        apply qltb_iff in Eq. specialize (Hc hi ltac:(lra)). exfalso. lra.
      - destruct (qltb 0 (M hi)) eqn:Eq; [|eexists; reflexivity]. apply IHn; [lra| |lia].
        rewrite Nat2Z.inj_succ, Z.pow_succ_r, inject_Z_mult in H2 by lia. change (inject_Z 2) with 2 in H2. lra. }
    exists (Datatypes.S (Z.to_nat (Qceiling c))). intros fuel Hf. apply (G (Z.to_nat (Qceiling c))); [lra| |assumption].
    apply Qle_trans with (inject_Z (Qceiling c)); [apply Qle_ceiling|]. rewrite Qmult_1_l, <- Zle_Qle.
    destruct (Z.le_gt_cases (Qceiling c) 0).
    - pose proof (Z.pow_pos_nonneg 2 (Z.of_nat (Z.to_nat (Qceiling c))) ltac:(lia) ltac:(lia)). lia.
    - rewrite Z2Nat.id by lia. pose proof (Z.pow_gt_lin_r 2 (Qceiling c) ltac:(lia) ltac:(lia)). lia.
  Qed.

  Lemma bisect_spec : forall r lo hi, 0 <= lo -> lo <= hi -> M hi <= 0 -> (lo == 0 \/ 0 <= M lo) ->
    let (lo', hi') := bisect r M lo hi in
    lo <= lo' /\ lo' <= hi' /\ hi' <= hi /\ M hi' <= 0 /\ (lo' == 0 \/ 0 <= M lo') /\ (hi' - lo') * inject_Z (2 ^ Z.of_nat r) == hi - lo.
  Proof.
    induction r; intros lo hi H1 H2 H3 H4; cbn [bisect].
    - repeat split; try assumption; try lra. change (inject_Z (2 ^ Z.of_nat 0)) with 1. lra.
    - cbv zeta. set (mid := (hi + lo) / 2).
      assert (Em : mid == (hi + lo) * (1 # 2)) by (unfold mid; field).
      assert (P2 : forall x, x * inject_Z (2 ^ Z.of_nat (Datatypes.S r)) == 2 * (x * inject_Z (2 ^ Z.of_nat r))).
      { intros x. rewrite Nat2Z.inj_succ, Z.pow_succ_r, inject_Z_mult by lia. change (inject_Z 2) with 2. lra. }
      destruct (qltb (M mid) 0) eqn:Eq.
      + apply qltb_iff in Eq. specialize (IHr lo mid H1 ltac:(lra) ltac:(lra) H4).
        destruct (bisect r M lo mid) as [lo' hi']. destruct IHr as [I1 [I2 [I3 [I4 [I5 I6]]]]].
        repeat split; try assumption; try lra. rewrite P2. lra.
      + apply qltb_false in Eq. specialize (IHr mid hi ltac:(lra) ltac:(lra) H3 (or_intror Eq)).
        destruct (bisect r M mid hi) as [lo' hi']. destruct IHr as [I1 [I2 [I3 [I4 [I5 I6]]]]].
        repeat split; try assumption; try lra. rewrite P2. lra.
  Qed.

  Lemma binsearch_spec : forall fuel rounds s, compute_binsearch_s fuel m uc S lines rounds = Some s -> 0 <= s /\ M s <= 0.
  Proof.
    intros fuel rounds s E. unfold compute_binsearch_s in E. fold M in E.
    destruct (bin_double fuel M 0 1) as [[lo hi]|] eqn:Ed; [|discriminate]. inversion E; subst. clear E.
    destruct (bin_double_spec fuel 0 1 lo hi) as [D1 [D2 [D3 D4]]]; [lra|lra|lra|left; lra|exact Ed|].
    pose proof (bisect_spec rounds lo hi D1 D2 D3 ltac:(destruct D4; [left|right]; lra)) as B.
    destruct (bisect rounds M lo hi) as [lo' hi']. cbn. destruct B as [B1 [B2 [B3 [B4 _]]]]. split; [lra|assumption].
  Qed.
End Search.
