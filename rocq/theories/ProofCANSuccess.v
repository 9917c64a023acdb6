(** Proofs about the success probability of replicated CAN messages. *)
From Coq Require Import Reals Lra ZArith List Bool Arith Lia Permutation.
From Verif Require Import Base ModelCAN SpecCAN ProofCAN ModelCANProb SpecCANProb ProofCANProb ModelCANSuccess SpecCANSuccess.
Import ListNotations.
Local Open Scope R_scope.

(** ** expectations *)
Lemma expect_ext p n : forall f g, (forall l, length l = n -> f l = g l) -> expect p n f = expect p n g.
Proof.
  induction n as [|n IH]; intros f g H; cbn [expect]; [apply H; reflexivity|].
  rewrite (IH (fun l => f (true :: l)) (fun l => g (true :: l))), (IH (fun l => f (false :: l)) (fun l => g (false :: l))); [reflexivity| |]; intros l L; apply H; cbn; lia.
Qed.
Lemma expect_le p n : 0 <= p <= 1 -> forall f g, (forall l, length l = n -> f l <= g l) -> expect p n f <= expect p n g.
Proof.
  intros Hp. induction n as [|n IH]; intros f g H; cbn [expect]; [apply H; reflexivity|].
  apply Rplus_le_compat; apply Rmult_le_compat_l; try lra; apply IH; intros l L; apply H; cbn; lia.
Qed.
Lemma expect_const p n c : expect p n (fun _ => c) = c.
Proof. induction n as [|n IH]; cbn [expect]; [reflexivity|]. rewrite IH. lra. Qed.

Lemma probability_bounds p n e : 0 <= p <= 1 -> 0 <= probability p n e <= 1.
Proof.
  intros Hp. unfold probability. split.
  - apply Rle_trans with (expect p n (fun _ => 0)); [rewrite expect_const; lra|]. apply expect_le; [exact Hp|]. intros l _. destruct (e l); lra.
  - apply Rle_trans with (expect p n (fun _ => 1)); [|rewrite expect_const; lra]. apply expect_le; [exact Hp|]. intros l _. destruct (e l); lra.
Qed.

Lemma count_cons x y l : count x (y :: l) = ((if Bool.eqb x y then 1 else 0) + count x l)%nat.
Proof. unfold count. cbn [filter]. destruct (Bool.eqb x y); reflexivity. Qed.
Lemma count_both l : (count true l + count false l)%nat = length l.
Proof. induction l as [|x l IH]; [reflexivity|]. rewrite !count_cons. cbn [length]. destruct x; cbn [Bool.eqb]; lia. Qed.

Lemma C_n_0 n : C n 0 = 1.
Proof. unfold C. rewrite Nat.sub_0_r. cbn [fact INR]. pose proof (INR_fact_neq_0 n). field. exact H. Qed.
Lemma C_n_n n : C n n = 1.
Proof. unfold C. rewrite Nat.sub_diag. cbn [fact INR]. pose proof (INR_fact_neq_0 n). field. exact H. Qed.

(** the binomial distribution *)
Lemma expect_count p k : forall g, expect p k (fun l => g (count true l)) = nsum (fun l => binomial_term k p l * g l) (S k).
Proof.
  induction k as [|k IH]; intros g.
  - cbn [expect]. unfold nsum. cbn [seq]. rewrite rsum_cons, rsum_nil. unfold binomial_term. rewrite C_n_0. cbn. lra.
  - cbn [expect].
    rewrite (expect_ext p k (fun l => g (count true (true :: l))) (fun l => g (S (count true l)))) by (intros l _; rewrite count_cons; reflexivity).
    rewrite (expect_ext p k (fun l => g (count true (false :: l))) (fun l => g (count true l))) by (intros l _; rewrite count_cons; reflexivity).
    rewrite (IH (fun c => g (S c))), (IH g).
    transitivity (p * (nsum (fun l => binomial_term k p l * g (S l)) k + binomial_term k p k * g (S k)) +
                  (1 - p) * (binomial_term k p 0 * g 0%nat + nsum (fun l => binomial_term k p (S l) * g (S l)) k)).
    { rewrite nsum_S. f_equal. f_equal. replace (S k) with (1 + k)%nat by lia. rewrite nsum_split. unfold nsum at 1. cbn [seq]. rewrite rsum_cons, rsum_nil. cbn [plus]. lra. }
    replace (nsum (fun l => binomial_term (S k) p l * g l) (S (S k))) with
      (binomial_term (S k) p 0 * g 0%nat + (nsum (fun l => binomial_term (S k) p (S l) * g (S l)) k + binomial_term (S k) p (S k) * g (S k))).
    2:{ rewrite <- (nsum_S (fun l => binomial_term (S k) p (S l) * g (S l)) k). replace (S (S k)) with (1 + S k)%nat by lia. rewrite (nsum_split _ 1 (S k)). unfold nsum at 2. cbn [seq]. rewrite rsum_cons, rsum_nil. cbn [plus]. lra. }
    assert (M : nsum (fun l => binomial_term (S k) p (S l) * g (S l)) k =
      p * nsum (fun l => binomial_term k p l * g (S l)) k + (1 - p) * nsum (fun l => binomial_term k p (S l) * g (S l)) k).
    { rewrite <- !nsum_scal, <- nsum_plus. apply nsum_ext. intros l Hl. unfold binomial_term. rewrite <- pascal by exact Hl.
      replace (S k - S l)%nat with (S (k - S l)) by lia. replace (k - l)%nat with (S (k - S l)) by lia. cbn [pow]. ring. }
    assert (Z0 : binomial_term (S k) p 0 = (1 - p) * binomial_term k p 0).
    { unfold binomial_term. rewrite !C_n_0, !Nat.sub_0_r. cbn [pow]. ring. }
    assert (Zn : binomial_term (S k) p (S k) = p * binomial_term k p k).
    { unfold binomial_term. rewrite !C_n_n, !Nat.sub_diag. cbn [pow]. ring. }
    rewrite M, Z0, Zn. ring.
Qed.

Lemma fold_rsum {A} (f : A -> R) l : forall a, fold_left (fun s x => s + f x) l a = a + rsum f l.
Proof. induction l as [|x l IH]; intros a; cbn [fold_left]; rewrite ?rsum_nil, ?rsum_cons; [lra|]. rewrite IH. lra. Qed.

Lemma binomial_tail p k T : (T <= S k)%nat -> nsum (binomial_term k p) T = probability p k (fun l => Nat.ltb (count true l) T).
Proof.
  intros L. unfold probability. rewrite (expect_count p k (fun c => if Nat.ltb c T then 1 else 0)).
  replace (S k) with (T + (S k - T))%nat by lia. rewrite nsum_split.
  rewrite (nsum_zero (fun i => binomial_term k p (T + i) * _)); [|intros i _; destruct (Nat.ltb_spec (T + i) T); [lia|lra]].
  rewrite Rplus_0_r. apply nsum_ext. intros i Hi. destruct (Nat.ltb_spec i T); [lra|lia].
Qed.

Lemma sync_probability k pc r : get_prob_correct_sync k pc = probability pc k (majority true r).
Proof.
  unfold get_prob_correct_sync. rewrite fold_rsum, Rplus_0_l. fold (nsum (binomial_term k pc) (Nat.div (k + 1) 2)).
  assert (D := Nat.div_mod (k + 1) 2 ltac:(lia)). pose proof (Nat.mod_upper_bound (k + 1) 2 ltac:(lia)).
  rewrite binomial_tail by lia. apply expect_ext. intros l L. unfold majority. pose proof (count_both l).
  destruct (Nat.ltb_spec (count true l) (Nat.div (k + 1) 2)), (Nat.ltb_spec (length l) (2 * count false l)); try reflexivity; lia.
Qed.
Lemma async_probability k pc r : get_prob_correct_async k pc (S (Nat.div r 2)) = probability pc k (majority false r).
Proof.
  unfold get_prob_correct_async. rewrite fold_rsum, Rplus_0_l. fold (nsum (binomial_term k pc) (S k - S (Nat.div r 2))).
  assert (D := Nat.div_mod r 2 ltac:(lia)). pose proof (Nat.mod_upper_bound r 2 ltac:(lia)).
  rewrite binomial_tail by lia. apply expect_ext. intros l L. unfold majority. pose proof (count_both l).
  destruct (Nat.ltb_spec (count true l) (S k - S (Nat.div r 2))), (Nat.ltb_spec r (2 * count false l)); try reflexivity; lia.
Qed.

(** ** subsets *)
Definition select (ids : list Z) (pat : list bool) : list Z := map fst (filter snd (combine ids pat)).

Lemma powerset_length ids : forall o, In o (powerset ids) -> (length o <= length ids)%nat.
Proof.
  induction ids as [|x r IH]; intros o H; [destruct H|]. destruct r as [|y r].
  - destruct H as [<-|[<-|[]]]; cbn; lia.
  - change (powerset (x :: y :: r)) with (flat_map (fun item => [item; x :: item]) (powerset (y :: r))) in H. apply in_flat_map in H. destruct H as [i [Hi [<-|[<-|[]]]]]; specialize (IH i Hi); cbn [length] in *; lia.
Qed.

Lemma powerset_sum p ids : ids <> [] -> forall F : list Z -> R,
  rsum (fun o => p ^ (length o) * (1 - p) ^ (length ids - length o) * F o) (powerset ids) = expect p (length ids) (fun pat => F (select ids pat)).
Proof.
  induction ids as [|x r IH]; intros N F; [congruence|]. destruct r as [|y r].
  - cbn [powerset]. rewrite !rsum_cons, rsum_nil. cbn [length expect Nat.sub pow]. unfold select. cbn. lra.
  - change (powerset (x :: y :: r)) with (flat_map (fun item => [item; x :: item]) (powerset (y :: r))). rewrite rsum_flat.
    remember (y :: r) as s eqn:Es. assert (Ns : s <> []) by (subst; discriminate). specialize (IH Ns).
    cbn [length expect].
    rewrite (expect_ext p (length s) (fun l => F (select (x :: s) (true :: l))) (fun l => F (x :: select s l))) by (intros; reflexivity).
    rewrite (expect_ext p (length s) (fun l => F (select (x :: s) (false :: l))) (fun l => F (select s l))) by (intros; reflexivity).
    rewrite <- (IH (fun o => F (x :: o))), <- (IH F), <- !rsum_scal, <- rsum_plus. apply rsum_ext. intros o Ho. apply powerset_length in Ho.
    rewrite !rsum_cons, rsum_nil. cbn [length]. replace (S (length s) - length o)%nat with (S (length s - length o)) by lia. cbn [Nat.sub pow]. lra.
Qed.

(** powerset yields every subset exactly once *)
Lemma powerset_nodup ids : NoDup ids -> NoDup (powerset ids).
Proof.
  induction ids as [|x r IH]; intros N; [constructor|]. inversion N as [|? ? Nx Nr]; subst. destruct r as [|y r].
  - cbn. repeat constructor; cbn; intuition discriminate.
  - change (powerset (x :: y :: r)) with (flat_map (fun item => [item; x :: item]) (powerset (y :: r))). specialize (IH Nr).
    assert (S : forall o, In o (powerset (y :: r)) -> ~ In x o).
    { intros o Ho Hx. apply Nx. clear -Ho Hx. revert o x Ho Hx. induction (y :: r) as [|a s IHs]; intros o x Ho Hx; [destruct Ho|]. destruct s as [|c s].
      - destruct Ho as [<-|[<-|[]]]; [exact Hx|destruct Hx].
      - change (powerset (a :: c :: s)) with (flat_map (fun item => [item; a :: item]) (powerset (c :: s))) in Ho. apply in_flat_map in Ho. destruct Ho as [i [Hi [<-|[<-|[]]]]].
        + right. exact (IHs _ _ Hi Hx).
        + destruct Hx as [->|Hx]; [left; reflexivity|right; exact (IHs _ _ Hi Hx)]. }
    apply nodup_flat with (inv := fun o => match o with z :: o' => if Z.eq_dec z x then o' else o | [] => [] end); [exact IH| |].
    + intros o Ho. constructor; [|constructor; [intros []|constructor]]. intros [E|[]]. apply (S o Ho). rewrite <- E. left. reflexivity.
    + intros o o' Ho [<-|[<-|[]]].
      * destruct o as [|z o]; [reflexivity|]. destruct (Z.eq_dec z x) as [->|_]; [|reflexivity]. exfalso. apply (S _ Ho). left. reflexivity.
      * destruct (Z.eq_dec x x); [reflexivity|congruence].
Qed.

(** ** timely replicas *)
Lemma fold_count {A} (c : A -> bool) l : forall n, fold_left (fun n x => if c x then S n else n) l n = (n + length (filter c l))%nat.
Proof. induction l as [|x l IH]; intros n; cbn [fold_left filter length]; [lia|]. rewrite IH. destruct (c x); cbn [length]; lia. Qed.
Lemma fold_ext {A B} (f g : A -> B -> A) l : (forall a x, In x l -> f a x = g a x) -> forall a, fold_left f l a = fold_left g l a.
Proof. induction l as [|x l IH]; intros H a; cbn [fold_left]; [reflexivity|]. rewrite H by (left; reflexivity). apply IH. intros; apply H; right; assumption. Qed.

Lemma filter_false {A} (P : A -> bool) l : (forall x, In x l -> P x = false) -> filter P l = [].
Proof. induction l as [|x l IH]; intros H; [reflexivity|]. cbn [filter]. rewrite (H x) by (left; reflexivity). apply IH. intros; apply H; right; assumption. Qed.

Section Success.
  Variable b : canbus.
  Variable ms : list rmsg.
  Variable mi : rmsg.
  Variable mfr : R.
  Hypothesis WB : wf_bus b.
  Hypothesis WM : forall x, In x ms -> wf_msg (r_msg x).
  Hypothesis IDS : NoDup (map (fun x => cm_id (r_msg x)) ms).
  Hypothesis Hmi : In mi ms.
  Hypothesis rate : 0 <= mfr.
  Hypothesis dl : (0 <= cm_deadline (r_msg mi))%Z.

  Definition reps : list cmsg := map r_msg (filter (fun mk => (r_tid mk =? r_tid mi)%Z) ms).
  Definition cms : list cmsg := map r_msg ms.
  Definition wf' : cmsg -> nat -> Z := fun x f => wctt b cms x (Z.of_nat f).

  Lemma wf_cms x : In x cms -> wf_msg x.
  Proof. intros H. apply in_map_iff in H. destruct H as [y [<- Hy]]. apply WM. exact Hy. Qed.
  Lemma reps_in x : In x reps -> In x cms.
  Proof. intros H. apply in_map_iff in H. destruct H as [y [<- Hy]]. apply filter_In in Hy. apply in_map. apply Hy. Qed.
  Lemma reps_ids : replica_ids ms mi = map cm_id reps.
  Proof. unfold replica_ids, reps. rewrite map_map. reflexivity. Qed.
  Lemma reps_nodup : NoDup (map cm_id reps).
  Proof.
    rewrite <- reps_ids. unfold replica_ids. clear -IDS. induction ms as [|x l IH]; [constructor|]. cbn [map] in IDS. inversion IDS as [|? ? N1 N2]; subst. specialize (IH N2).
    cbn [filter]. destruct (r_tid x =? r_tid mi)%Z; [|exact IH]. cbn [map]. constructor; [|exact IH]. intros H. apply N1. apply in_map_iff in H. destruct H as [y [E Hy]]. apply filter_In in Hy.
    apply in_map_iff. exists y. split; [exact E|apply Hy].
  Qed.
  Lemma factor_length : replication_factor ms mi = length reps.
  Proof. unfold replication_factor. rewrite fold_count. unfold reps. rewrite map_length. reflexivity. Qed.
  Lemma reps_nonempty : reps <> [].
  Proof.
    intros E. assert (H : In (r_msg mi) reps); [|rewrite E in H; destruct H]. unfold reps. apply in_map. apply filter_In. split; [exact Hmi|]. apply Z.eqb_refl.
  Qed.

  Definition ok (f : nat) (x : cmsg) : bool := (wf' x f + cm_jitter x <=? cm_deadline x)%Z.

  Lemma timely_filter omitted f : timely_replicas b ms mi omitted f = length (filter (fun x => negb (existsb (Z.eqb (cm_id x)) omitted) && ok f x) reps).
  Proof.
    unfold timely_replicas. rewrite (fold_ext _ (fun n mk => if (r_tid mk =? r_tid mi)%Z && (negb (existsb (Z.eqb (cm_id (r_msg mk))) omitted) && ok f (r_msg mk)) then S n else n)).
    - rewrite fold_count. cbn [plus]. unfold reps. clear. induction ms as [|x l IH]; [reflexivity|]. cbn [filter]. destruct (r_tid x =? r_tid mi)%Z; cbn [andb map filter]; [|exact IH].
      destruct (negb (existsb (Z.eqb (cm_id (r_msg x))) omitted) && ok f (r_msg x)); cbn [length]; rewrite IH; reflexivity.
    - intros n x _. unfold ok, wf', cms. destruct (r_tid x =? r_tid mi)%Z, (existsb (Z.eqb (cm_id (r_msg x))) omitted); cbn [andb negb]; reflexivity.
  Qed.

  Lemma select_in (l : list cmsg) pat x o : NoDup (map cm_id l) -> length pat = length l -> In (x, o) (combine l pat) ->
    existsb (Z.eqb (cm_id x)) (select (map cm_id l) pat) = o.
  Proof.
    clear. revert pat. induction l as [|y l IH]; intros pat N L H; [destruct H|]. destruct pat as [|c pat]; [discriminate|]. cbn [map] in N. inversion N as [|? ? N1 N2]; subst.
    assert (S : forall z, existsb (Z.eqb z) (select (map cm_id l) pat) = true -> In z (map cm_id l)).
    { intros z E. apply existsb_exists in E. destruct E as [u [Hu E]]. apply Z.eqb_eq in E. subst u. unfold select in Hu. apply in_map_iff in Hu. destruct Hu as [[u v] [E Hu]]. cbn in E. subst u. apply filter_In in Hu. destruct Hu as [Hu _]. apply in_combine_l in Hu. exact Hu. }
    cbn [length] in L. cbn [combine In] in H. change (select (map cm_id (y :: l)) (c :: pat)) with (map fst (if c then (cm_id y, c) :: filter snd (combine (map cm_id l) pat) else filter snd (combine (map cm_id l) pat))).
    destruct H as [E|H].
    - injection E as -> ->. destruct o; cbn [map fst existsb]; [rewrite Z.eqb_refl; reflexivity|]. destruct (existsb (Z.eqb (cm_id x)) (map fst (filter snd (combine (map cm_id l) pat)))) eqn:X; [|reflexivity]. exfalso. apply N1, S. exact X.
    - specialize (IH pat N2 ltac:(lia) H). assert (D : cm_id x <> cm_id y).
      { intros E. apply N1. rewrite <- E. apply in_map. apply in_combine_l in H. exact H. }
      destruct c; cbn [map fst existsb]; [|exact IH]. destruct (Z.eqb_spec (cm_id x) (cm_id y)); [contradiction|]. exact IH.
  Qed.

  Lemma timely_eq pat f : length pat = length reps -> timely_replicas b ms mi (select (replica_ids ms mi) pat) f = timely wf' reps pat f.
  Proof.
    intros L. rewrite timely_filter, reps_ids. unfold timely.
    assert (G : forall l p (P : cmsg -> bool) (Q : cmsg * bool -> bool), length p = length l -> (forall x o, In (x, o) (combine l p) -> P x = Q (x, o)) -> length (filter P l) = length (filter Q (combine l p))).
    { clear. induction l as [|x l IH]; intros p P Q L H; [reflexivity|]. destruct p as [|o p]; [discriminate|]. cbn [combine filter]. rewrite (H x o) by (left; reflexivity).
      specialize (IH p P Q ltac:(cbn in L; lia) ltac:(intros; apply H; right; assumption)). destruct (Q (x, o)); cbn [length]; rewrite IH; reflexivity. }
    apply G; [exact L|]. intros x o H. cbn [fst snd]. rewrite (select_in reps pat x o reps_nodup L H). reflexivity.
  Qed.

  (** fewer replicas are timely with more faults *)
  Lemma ok_anti f f' x : In x cms -> (f <= f')%nat -> ok f' x = true -> ok f x = true.
  Proof.
    intros Hx L H. unfold ok, wf' in *. apply Z.leb_le in H. apply Z.leb_le. pose proof (wctt_monotone b cms x (Z.of_nat f) (Z.of_nat f') WB wf_cms ltac:(lia) H). lia.
  Qed.
  Lemma filter_le {A} (P Q : A -> bool) l : (forall x, In x l -> P x = true -> Q x = true) -> (length (filter P l) <= length (filter Q l))%nat.
  Proof.
    clear. induction l as [|x l IH]; intros H; [reflexivity|]. cbn [filter]. specialize (IH ltac:(intros; apply H; [right|]; assumption)). pose proof (H x (or_introl eq_refl)).
    destruct (P x); [rewrite H0 by reflexivity; cbn [length]; lia|]. destruct (Q x); cbn [length]; lia.
  Qed.
  Lemma timely_anti omitted f f' : (f <= f')%nat -> (timely_replicas b ms mi omitted f' <= timely_replicas b ms mi omitted f)%nat.
  Proof.
    intros L. rewrite !timely_filter. apply filter_le. intros x Hx H. apply andb_prop in H. destruct H as [H1 H2]. rewrite H1. cbn [andb]. exact (ok_anti f f' x (reps_in x Hx) L H2).
  Qed.

  Variable bound : nat.
  Hypothesis END : forall x, In x reps -> ok bound x = false.

  Lemma timely_end omitted f : (bound <= f)%nat -> timely_replicas b ms mi omitted f = 0%nat.
  Proof.
    intros L. pose proof (timely_anti omitted bound f L) as A. rewrite (timely_filter omitted bound) in A.
    assert (E : filter (fun x => negb (existsb (Z.eqb (cm_id x)) omitted) && ok bound x) reps = []).
    { apply filter_false. intros x Hx. rewrite (END x Hx). apply andb_false_r. }
    rewrite E in A. cbn in A. lia.
  Qed.
  Definition lam : R := mfr * IZR (cm_deadline (r_msg mi)).

  Lemma periodic_ok omitted k fuel : (1 <= k)%nat -> (bound < fuel)%nat ->
    get_prob_time_periodic fuel b ms mi mfr omitted k = Some (nsum (fun f => if Nat.eqb (timely_replicas b ms mi omitted f) k then poisson lam f else 0) bound).
  Proof.
    intros K F. unfold get_prob_time_periodic. set (g := fun f => if Nat.eqb (timely_replicas b ms mi omitted f) k then poisson lam f else 0).
    assert (ZERO : forall f a, (timely_replicas b ms mi omitted f < k)%nat -> nsum g (f + a) = nsum g f).
    { intros f a L. rewrite nsum_split. rewrite (nsum_zero (fun i => g (f + i)%nat) a); [lra|]. intros i _. unfold g. pose proof (timely_anti omitted f (f + i) ltac:(lia)). destruct (Nat.eqb_spec (timely_replicas b ms mi omitted (f + i)) k); [lia|reflexivity]. }
    enough (G : forall fl f, (bound < f + fl)%nat -> (f <= bound)%nat -> time_periodic_loop fl b ms mi mfr omitted k f (nsum g f) = Some (nsum g bound)).
    { specialize (G fuel 0%nat ltac:(lia) ltac:(lia)). unfold nsum at 1 in G. cbn [seq] in G. rewrite rsum_nil in G. exact G. }
    induction fl as [|fl IH]; intros f L1 L2; [lia|]. cbn [time_periodic_loop]. cbv zeta. destruct (Nat.ltb_spec (timely_replicas b ms mi omitted f) k) as [X|X].
    - f_equal. replace bound with (f + (bound - f))%nat by lia. symmetry. apply ZERO. exact X.
    - assert (f <> bound) by (intros ->; rewrite timely_end in X by lia; lia).
      rewrite <- (IH (S f)) by lia. f_equal. rewrite nsum_S. change (g f) with (if Nat.eqb (timely_replicas b ms mi omitted f) k then poisson lam f else 0). rewrite get_poisson_spec; [fold lam; destruct (Nat.eqb (timely_replicas b ms mi omitted f) k); lra|].
      apply Rmult_le_pos; [exact rate|]. apply IZR_le. exact dl.
  Qed.

  Lemma time_correct_ok omitted fuel (pcs : list R) s PC : (bound < fuel)%nat -> (forall f, timely_replicas b ms mi omitted f <= s)%nat ->
    (forall k, (1 <= k <= s)%nat -> nth k pcs 0 = PC k) -> PC 0%nat = 0 ->
    prob_time_correct fuel b ms mi mfr omitted pcs s = Some (nsum (fun f => poisson lam f * PC (timely_replicas b ms mi omitted f)) bound).
  Proof.
    intros F S V Z. unfold prob_time_correct.
    assert (G : forall l a, (forall k, In k l -> 1 <= k <= s)%nat -> fold_left (fun acc k => match acc, get_prob_time_periodic fuel b ms mi mfr omitted k with
                          | Some a, Some p => Some (a + p * nth k pcs 0) | _, _ => None end) l (Some a) =
        Some (a + rsum (fun k => nsum (fun f => (if Nat.eqb (timely_replicas b ms mi omitted f) k then poisson lam f else 0) * PC k) bound) l)).
    { induction l as [|k l IH]; intros a H; cbn [fold_left]; rewrite ?rsum_nil, ?rsum_cons; [f_equal; lra|]. pose proof (H k (or_introl eq_refl)).
      rewrite (periodic_ok omitted k fuel) by lia. rewrite IH by (intros; apply H; right; assumption). f_equal. rewrite Rplus_assoc. f_equal. f_equal. rewrite V by lia.
      rewrite Rmult_comm, <- nsum_scal. apply nsum_ext. intros f _. lra. }
    rewrite G by (intros k Hk; apply in_seq in Hk; lia). f_equal. rewrite Rplus_0_l. unfold nsum. rewrite rsum_swap. apply rsum_ext. intros f _.
    set (t := timely_replicas b ms mi omitted f). specialize (S f). fold t in S.
    transitivity (nsum (fun k => (if Nat.eqb t k then poisson lam f else 0) * PC k) (1 + s)).
    - rewrite nsum_split. unfold nsum at 1. cbn [seq]. rewrite rsum_cons, rsum_nil, Z. unfold nsum. rewrite <- seq_shift, rsum_map. cbn [plus]. lra.
    - rewrite (nsum_one _ (1 + s) t); [rewrite Nat.eqb_refl; reflexivity|lia|]. intros i _ Ni. destruct (Nat.eqb_spec t i); [lia|lra].
  Qed.

  Variable po boot : R.
  Hypothesis po_nonneg : 0 <= po.
  Hypothesis boot_nonneg : 0 <= boot.

  Lemma not_zero x : 0 <= x -> 1 - get_prob_poisson 0 x po = 1 - exp (- (po * x)).
  Proof. intros H. rewrite get_poisson_spec by (apply Rmult_le_pos; assumption). rewrite poisson_0. reflexivity. Qed.

  Lemma fault_prob x : 0 <= x -> 0 <= 1 - exp (- (po * x)) <= 1.
  Proof.
    intros H. pose proof (exp_pos (- (po * x))). assert (exp (- (po * x)) <= 1); [|lra]. rewrite <- exp_0. assert (Y : 0 <= po * x) by (apply Rmult_le_pos; assumption).
    destruct (Rle_lt_or_eq_dec _ _ Y) as [P|E]; [left; apply exp_increasing; lra|rewrite <- E, Ropp_0; lra].
  Qed.

  Definition the_success (sync : bool) : R :=
    success wf' reps sync (1 - exp (- (po * boot))) (1 - exp (- (po * IZR (cm_deadline (r_msg mi))))) lam bound.

  Lemma success_bounds sync : 0 <= the_success sync <= 1.
  Proof.
    assert (dl' : 0 <= IZR (cm_deadline (r_msg mi))) by (apply IZR_le; exact dl).
    assert (L : 0 <= lam) by (apply Rmult_le_pos; assumption).
    pose proof (fault_prob boot boot_nonneg) as PB. pose proof (fault_prob _ dl') as PD. unfold the_success, success. split.
    - apply Rle_trans with (expect (1 - exp (- (po * boot))) (length reps) (fun _ => 0)); [rewrite expect_const; lra|]. apply expect_le; [exact PB|]. intros l _. apply rsum_nonneg. intros f _.
      apply Rmult_le_pos; [apply poisson_nonneg, L|apply probability_bounds, PD].
    - apply Rle_trans with (expect (1 - exp (- (po * boot))) (length reps) (fun _ => 1)); [|rewrite expect_const; lra]. apply expect_le; [exact PB|]. intros l _.
      apply Rle_trans with (nsum (poisson lam) bound); [|apply poisson_mass, L]. unfold nsum. apply rsum_le. intros f _.
      rewrite <- (Rmult_1_r (poisson lam f)) at 2. apply Rmult_le_compat_l; [apply poisson_nonneg, L|]. apply probability_bounds, PD.
  Qed.

  Lemma schedulable_ok fuel sync : (bound < fuel)%nat -> ps_prob_schedulable fuel b ms mi mfr po boot sync = Some (the_success sync).
  Proof.
    intros F. unfold ps_prob_schedulable. cbv zeta. rewrite factor_length, reps_ids, map_length, Nat.eqb_refl.
    assert (dl' : 0 <= IZR (cm_deadline (r_msg mi))) by (apply IZR_le; exact dl).
    rewrite !not_zero by assumption. set (pc := 1 - exp (- (po * IZR (cm_deadline (r_msg mi))))). set (pom := 1 - exp (- (po * boot))).
    set (r := length reps). set (pcs := map _ (seq 0 (S r))). set (PC := fun k => probability pc k (majority sync r)).
    assert (V : forall k, (k <= r)%nat -> nth k pcs 0 = PC k).
    { intros k Hk. unfold pcs. rewrite (nth_indep _ 0 ((fun k => if sync then get_prob_correct_sync k pc else get_prob_correct_async k pc (S (Nat.div r 2))) 0%nat)) by (rewrite map_length, seq_length; lia).
      rewrite (map_nth (fun k => if sync then get_prob_correct_sync k pc else get_prob_correct_async k pc (S (Nat.div r 2)))), seq_nth by lia. cbn [plus]. unfold PC.
      destruct sync; [apply sync_probability|apply async_probability]. }
    assert (Z : PC 0%nat = 0).
    { unfold PC, probability. cbn [expect]. unfold majority. cbn. destruct sync; reflexivity. }
    assert (T : forall o f, In o (powerset (map cm_id reps)) -> (timely_replicas b ms mi o f <= r - length o)%nat).
    { intros o f Ho. rewrite timely_filter.
      assert (S : forall l o, In o (powerset (map cm_id l)) -> NoDup (map cm_id l) -> exists pat, length pat = length l /\ o = select (map cm_id l) pat).
      { clear. induction l as [|x l IH]; intros o Ho N; [destruct Ho|]. cbn [map] in N. inversion N as [|? ? _ N2]; subst. destruct l as [|y l].
        - destruct Ho as [<-|[<-|[]]]; [exists [true]|exists [false]]; split; reflexivity.
        - remember (y :: l) as s eqn:Es. change (map cm_id (x :: s)) with (cm_id x :: map cm_id s) in Ho.
          assert (Ho' : In o (flat_map (fun item => [item; cm_id x :: item]) (powerset (map cm_id s)))) by (rewrite Es in *; exact Ho). apply in_flat_map in Ho'.
          destruct Ho' as [i [Hi Ho']]. destruct (IH i Hi N2) as [pat [Lp ->]]. destruct Ho' as [<-|[<-|[]]]; [exists (false :: pat)|exists (true :: pat)]; (split; [cbn; lia|reflexivity]). }
      destruct (S reps o Ho reps_nodup) as [pat [Lp ->]].
      assert (X : forall l p, length p = length l -> NoDup (map cm_id l) -> (length (filter (fun x => negb (existsb (Z.eqb (cm_id x)) (select (map cm_id l) p)) && ok f x) l) + length (select (map cm_id l) p) <= length l)%nat).
      { intros l p Lp' Nl. assert (B : (length (filter (fun x => negb (existsb (Z.eqb (cm_id x)) (select (map cm_id l) p)) && ok f x) l) <= length (filter (fun y => negb (snd y)) (combine l p)))%nat).
        { assert (G : forall l p (P : cmsg -> bool) (Q : cmsg * bool -> bool), length p = length l -> (forall x o, In (x, o) (combine l p) -> P x = true -> Q (x, o) = true) -> (length (filter P l) <= length (filter Q (combine l p)))%nat).
          { clear. induction l as [|x l IH]; intros p P Q L H; [cbn; lia|]. destruct p as [|o p]; [discriminate|]. cbn [combine filter]. pose proof (H x o (or_introl eq_refl)) as H0.
            specialize (IH p P Q ltac:(cbn in L; lia) ltac:(intros; apply H; [right|]; assumption)). destruct (P x); [rewrite H0 by reflexivity; cbn [length]; lia|]. destruct (Q (x, o)); cbn [length]; lia. }
          apply G; [exact Lp'|]. intros x o' Hx Hp. apply andb_prop in Hp. destruct Hp as [Hp _]. cbn [snd]. rewrite (select_in l p x o' Nl Lp' Hx) in Hp. exact Hp. }
        assert (C : (length (filter (fun y : cmsg * bool => negb (snd y)) (combine l p)) + length (select (map cm_id l) p) = length l)%nat).
        { clear -Lp'. revert p Lp'. induction l as [|x l IH]; intros p L; [reflexivity|]. destruct p as [|o p]; [discriminate|]. specialize (IH p ltac:(cbn in L; lia)). unfold select in *. cbn [map combine filter snd]. destruct o; cbn [negb map length]; lia. }
        lia. }
      specialize (X reps pat Lp reps_nodup). fold r in X. lia. }
    assert (G : forall l a, (forall o, In o l -> In o (powerset (map cm_id reps))) -> fold_left (fun acc omitted =>
        match acc, prob_time_correct fuel b ms mi mfr omitted pcs (r - length omitted) with
        | Some a, Some p => Some (a + pom ^ (r - (r - length omitted)) * (1 - pom) ^ (r - length omitted) * p)
        | _, _ => None end) l (Some a) =
      Some (a + rsum (fun o => pom ^ (length o) * (1 - pom) ^ (r - length o) * nsum (fun f => poisson lam f * PC (timely_replicas b ms mi o f)) bound) l)).
    { induction l as [|o l IH]; intros a H; cbn [fold_left]; rewrite ?rsum_nil, ?rsum_cons; [f_equal; lra|].
      assert (Ho : In o (powerset (map cm_id reps))) by (apply H; left; reflexivity). pose proof (powerset_length _ _ Ho) as Lo. rewrite map_length in Lo. fold r in Lo.
      rewrite (time_correct_ok o fuel pcs (r - length o) PC F); [|intros f; apply T; exact Ho|intros k Hk; apply V; lia|exact Z].
      rewrite IH by (intros; apply H; right; assumption). f_equal. replace (r - (r - length o))%nat with (length o) by lia. lra. }
    rewrite G by auto. rewrite Rplus_0_l.
    assert (E : rsum (fun o => pom ^ (length o) * (1 - pom) ^ (r - length o) * nsum (fun f => poisson lam f * PC (timely_replicas b ms mi o f)) bound) (powerset (map cm_id reps)) = the_success sync).
    { transitivity (rsum (fun o => pom ^ (length o) * (1 - pom) ^ (length (map cm_id reps) - length o) * nsum (fun f => poisson lam f * PC (timely_replicas b ms mi o f)) bound) (powerset (map cm_id reps))).
      { apply rsum_ext. intros o _. rewrite map_length. reflexivity. }
      rewrite (powerset_sum pom (map cm_id reps)) with (F := fun o => nsum (fun f => poisson lam f * PC (timely_replicas b ms mi o f)) bound).
      - rewrite map_length. unfold the_success, success. fold pom pc r. apply expect_ext. intros pat Lp. unfold nsum. apply rsum_ext. intros f _. f_equal. unfold PC. rewrite <- reps_ids, timely_eq by exact Lp. reflexivity.
      - intros E. apply map_eq_nil in E. exact (reps_nonempty E). }
    rewrite E. f_equal. apply Rmin_left. apply success_bounds.
  Qed.
End Success.
