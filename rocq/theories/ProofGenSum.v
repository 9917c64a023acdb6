(** Proofs about StaffordRandFixedSum: the drawn utilizations lie between zero
    and one and their sum is the requested one. *)
From Coq Require Import ZArith QArith Qround List Bool Lia Lqa Permutation.
From Verif Require Import Base ModelTasks ModelOverheads ModelGen SpecGen ProofGen.
Import ListNotations.
Open Scope Q_scope.

Section FixedSumProof.
Variables (n : nat) (u tiny huge : Q).
Hypothesis (H0 : 0 <= huge).
Let f : Q := u - inject_Z (Qfloor u).

Lemma f_unit : 0 <= f /\ f < 1.
Proof. unfold f. pose proof (Qfloor_le u). pose proof (Qlt_floor u). rewrite inject_Z_plus in *. change (inject_Z 1) with 1 in *. lra. Qed.

Lemma nat_q : forall k, 0 <= inject_Z (Z.of_nat k).
Proof. intros. apply inject_nonneg. lia. Qed.

Lemma s1_eq : forall c, rfs_s1 u c == f + inject_Z (Z.of_nat c).
Proof. intros c. unfold rfs_s1, rfs_k, f. rewrite <- Z.add_opp_r, inject_Z_plus, inject_Z_opp. lra. Qed.

Lemma s2_eq : forall i c, (i <= n)%nat -> rfs_s2 n u (n - i + c) == inject_Z (Z.of_nat i) - inject_Z (Z.of_nat c) - f.
Proof.
  intros i c L. unfold rfs_s2, rfs_k, f. replace (Qfloor u + Z.of_nat n - Z.of_nat (n - i + c))%Z with (Qfloor u + Z.of_nat i + - Z.of_nat c)%Z by lia.
  rewrite !inject_Z_plus, inject_Z_opp. lra.
Qed.

Lemma w_zero_col : forall r, rfs_w n u huge r 0 == 0.
Proof. intros [|r]; cbn; lra. Qed.

Lemma w_high_col : forall r c, (S r < c)%nat -> rfs_w n u huge r c == 0.
Proof.
  intros [|r] c L; cbn [rfs_w].
  - destruct (Nat.eqb_spec c 1); [lia|lra].
  - destruct (Nat.leb_spec c (S (S r))); [lia|]. rewrite andb_false_r. lra.
Qed.

Lemma qdiv_nonneg : forall a b, 0 <= a -> 0 < b -> 0 <= a / b.
Proof. intros a b A B. apply Qle_shift_div_l; [assumption|]. lra. Qed.

Lemma w_nonneg : forall r c, (r < n)%nat -> 0 <= rfs_w n u huge r c.
Proof.
  induction r as [|r IH]; intros c L; cbn [rfs_w].
  - destruct (Nat.eqb c 1); lra.
  - destruct (Nat.leb_spec 1 c) as [A|A]; [|cbn; lra]. destruct (Nat.leb_spec c (S (S r))) as [B|B]; [|cbn; lra]. cbn [andb].
    assert (I : 0 < inject_Z (Z.of_nat (S (S r)))) by (apply inject_pos; lia).
    assert (P1 : 0 <= rfs_tmp1 u (rfs_w n u huge r) (S (S r)) (c - 1)).
    { unfold rfs_tmp1. apply qdiv_nonneg; [|assumption]. apply Qmult_le_0_compat; [apply IH; lia|]. rewrite s1_eq. pose proof f_unit. pose proof (nat_q (c - 1)). lra. }
    assert (P2 : 0 <= rfs_tmp2 n u (rfs_w n u huge r) (S (S r)) (c - 1)).
    { unfold rfs_tmp2. apply qdiv_nonneg; [|assumption]. apply Qmult_le_0_compat; [apply IH; lia|]. rewrite s2_eq by lia. pose proof f_unit.
      assert (inject_Z (Z.of_nat (c - 1)) + 1 <= inject_Z (Z.of_nat (S (S r)))).
      { change 1 with (inject_Z 1). rewrite <- inject_Z_plus, <- Zle_Qle. lia. }
      lra. }
    lra.
Qed.

Lemma div_zero : forall a b, a == 0 -> a / b == 0.
Proof. intros a b E. unfold Qdiv. rewrite E. lra. Qed.

Lemma t_first : forall i, (2 <= i <= n)%nat -> rfs_t n u tiny huge i 0 == 0.
Proof.
  intros i L. unfold rfs_t. destruct (Nat.ltb_spec 0 i); [|lia].
  destruct (Qle_bool (rfs_s2 n u (n - i + 0)) (rfs_s1 u 0)) eqn:E; cbn [negb].
  - exfalso. apply Qle_bool_iff in E. rewrite s2_eq, s1_eq in E by lia. change (inject_Z (Z.of_nat 0)) with 0 in E. pose proof f_unit.
    assert (2 <= inject_Z (Z.of_nat i)) by (change 2 with (inject_Z 2); rewrite <- Zle_Qle; lia). lra.
  - apply div_zero. unfold rfs_tmp2. apply div_zero. rewrite w_zero_col. lra.
Qed.

Lemma t_last : forall i, (2 <= i <= n)%nat -> rfs_t n u tiny huge i (i - 1) == 1.
Proof.
  intros i L. unfold rfs_t. destruct (Nat.ltb_spec (i - 1) i); [|lia].
  destruct (Qle_bool (rfs_s2 n u (n - i + (i - 1))) (rfs_s1 u (i - 1))) eqn:E; cbn [negb].
  - assert (Z0 : rfs_tmp1 u (rfs_w n u huge (i - 2)) i (i - 1) == 0).
    { unfold rfs_tmp1. apply div_zero. rewrite w_high_col by lia. lra. }
    rewrite (div_zero _ _ Z0). lra.
  - exfalso. apply Qle_bool_false in E. rewrite s2_eq, s1_eq in E by lia. pose proof f_unit.
    assert (inject_Z (Z.of_nat i) <= inject_Z (Z.of_nat (i - 1)) + 1).
    { change 1 with (inject_Z 1). rewrite <- inject_Z_plus, <- Zle_Qle. lia. }
    assert (1 <= inject_Z (Z.of_nat (i - 1))) by (change 1 with (inject_Z 1); rewrite <- Zle_Qle; lia). lra.
Qed.

Lemma lookup_in : forall i j, (1 <= j <= Z.of_nat i + 1)%Z -> (S i <= n)%nat -> rfs_lookup n u tiny huge i j = Some (rfs_t n u tiny huge (S i) (Z.to_nat (j - 1))).
Proof.
  intros i j J L. unfold rfs_lookup. destruct (Z.leb_spec 0 (j - 1)); [|lia]. destruct (Z.ltb_spec (j - 1) (Z.of_nat n)); [|lia]. reflexivity.
Qed.

Lemma loop_sum : forall rt sx, (forall k, 0 < rt k /\ rt k <= 1) -> (forall k, 0 <= sx k /\ sx k <= 1) ->
  forall i s j sm pr, (S i <= n)%nat -> (1 <= j <= Z.of_nat i + 1)%Z -> s == f + inject_Z (j - 1) -> 0 <= sm -> 0 <= pr -> sm + pr <= 1 ->
  exists xs, rfs_loop n u tiny huge rt sx i s j sm pr = Some xs /\ length xs = S i /\ Forall (fun x => 0 <= x /\ x <= 1) xs /\
    total xs == inject_Z (Z.of_nat (S i)) * sm + pr * s.
Proof.
  intros rt sx RT SX. pose proof f_unit as F. induction i as [|i IH]; intros s j sm pr L J S0 SM PR SP; cbn [rfs_loop].
  - exists [sm + pr * s]. split; [reflexivity|]. split; [reflexivity|]. assert (j = 1%Z) by lia. subst j. change (inject_Z (1 - 1)) with 0 in S0. split.
    + constructor; [|constructor]. assert (0 <= s /\ s <= 1) as [S1 S2] by lra. split.
      * pose proof (Qmult_le_0_compat pr s PR S1). lra.
      * assert (pr * s <= pr * 1) by (rewrite (Qmult_comm pr s), (Qmult_comm pr 1); apply Qmult_le_compat_r; assumption). lra.
    + cbn [total]. change (inject_Z (Z.of_nat 1)) with 1. lra.
  - rewrite lookup_in by lia.
    set (t := rfs_t n u tiny huge (S (S i)) (Z.to_nat (j - 1))). destruct (RT (n - S i - 1)%nat) as [R1 R2]. destruct (SX (n - S i - 1)%nat) as [X1 X2].
    set (x := sx (n - S i - 1)%nat) in *. set (e := Qle_bool (rt (n - S i - 1)%nat) t).
    set (D := inject_Z (Z.of_nat (S i) + 1)).
    assert (DD : D == inject_Z (Z.of_nat (S (S i)))) by (unfold D; rewrite Nat2Z.inj_succ with (n := S i); reflexivity).
    assert (DP : 0 < D) by (unfold D; apply inject_pos; lia).
    assert (SB : 0 <= s /\ s <= D).
    { assert (0 <= inject_Z (j - 1)) by (apply inject_nonneg; lia).
      assert (inject_Z (j - 1) + 1 <= D) by (change 1 with (inject_Z 1); unfold D; rewrite <- inject_Z_plus, <- Zle_Qle; lia). lra. }
    assert (Q1 : 0 <= s / D /\ s / D <= 1).
    { split; [apply qdiv_nonneg; tauto|]. apply Qle_shift_div_r; [assumption|]. lra. }
    set (y := s / D) in *.
    assert (YD : y * D == s) by (unfold y; field; lra).
    set (sm' := sm + (1 - x) * pr * s / D). assert (E1 : sm' == sm + (1 - x) * pr * y) by (unfold sm', y; field; lra).
    assert (PX : 0 <= x * pr) by (apply Qmult_le_0_compat; assumption).
    assert (PY : 0 <= (1 - x) * pr) by (apply Qmult_le_0_compat; lra).
    assert (P3 : 0 <= (1 - x) * pr * y) by (apply Qmult_le_0_compat; tauto).
    assert (P4 : (1 - x) * pr * y <= (1 - x) * pr).
    { setoid_replace ((1 - x) * pr) with ((1 - x) * pr * 1) at 2 by ring. rewrite (Qmult_comm _ y), (Qmult_comm _ 1). apply Qmult_le_compat_r; tauto. }
    assert (SM' : 0 <= sm') by (rewrite E1; lra).
    assert (SP' : sm' + x * pr <= 1) by (rewrite E1; lra).
    assert (NJ : (1 <= (if e then j - 1 else j) <= Z.of_nat i + 1)%Z).
    { destruct e eqn:E.
      - split; [|lia]. destruct (Z.eq_dec j 1) as [->|N]; [|lia]. exfalso. apply Qle_bool_iff in E. unfold t in E. change (Z.to_nat (1 - 1)) with 0%nat in E.
        rewrite t_first in E by lia. lra.
      - split; [lia|]. destruct (Z.eq_dec j (Z.of_nat (S i) + 1)) as [->|N]; [|lia]. exfalso. apply Qle_bool_false in E. unfold t in E.
        replace (Z.to_nat (Z.of_nat (S i) + 1 - 1)) with (S (S i) - 1)%nat in E by lia. rewrite t_last in E by lia. lra. }
    assert (NS : s - (if e then 1 else 0) == f + inject_Z ((if e then j - 1 else j) - 1)).
    { destruct e; [|lra]. replace (j - 1 - 1)%Z with (j - 1 + - 1)%Z by lia. rewrite inject_Z_plus. change (inject_Z (-1)) with (-1). lra. }
    destruct (IH _ _ sm' (x * pr) ltac:(lia) NJ NS SM' PX SP') as [xs [A [B [C T]]]]. rewrite A. cbn [option_map].
    exists (sm' + x * pr * (if e then 1 else 0) :: xs). split; [reflexivity|]. split; [cbn [length]; rewrite B; reflexivity|]. split.
    + constructor; [|assumption]. destruct e; lra.
    + cbn [total]. rewrite T. rewrite <- DD.
      assert (DS : inject_Z (Z.of_nat (S i)) == D - 1) by (unfold D; rewrite inject_Z_plus; change (inject_Z 1) with 1; lra). rewrite DS, E1.
      setoid_replace (pr * s) with (pr * (y * D)) by (rewrite YD; reflexivity).
      setoid_replace (x * pr * (s - (if e then 1 else 0))) with (x * pr * (y * D) - x * pr * (if e then 1 else 0)) by (rewrite YD; ring). ring.
Qed.
End FixedSumProof.

Lemma total_perm : forall a b, Permutation a b -> total a == total b.
Proof. induction 1; cbn [total]; lra. Qed.

Lemma nth_seq_id : forall (x : list Q), map (fun i => nth i x 0) (seq 0 (length x)) = x.
Proof.
  induction x as [|a x IH]; [reflexivity|]. cbn [length seq map nth]. f_equal. rewrite <- seq_shift, map_map. cbn [nth]. assumption.
Qed.

Lemma fixed_sum_total : forall n u tiny huge rt sx perm, (1 <= n)%nat -> 0 <= u -> u < inject_Z (Z.of_nat n) ->
  (forall k, 0 < rt k /\ rt k <= 1) -> (forall k, 0 <= sx k /\ sx k <= 1) -> Permutation perm (seq 0 n) ->
  exists xs, rand_fixed_sum n u tiny huge rt sx perm = Some xs /\ length xs = n /\ Forall (fun x => 0 <= x /\ x <= 1) xs /\ total xs == u.
Proof.
  intros n u tiny huge rt sx perm N U0 U1 RT SX P.
  destruct n as [|[|n]]; [lia| |].
  - exists [u]. change (inject_Z (Z.of_nat 1)) with 1 in U1. split; [reflexivity|]. split; [reflexivity|]. split; [constructor; [lra|constructor]|]. cbn [total]. lra.
  - set (m := S (S n)) in *. unfold rand_fixed_sum. fold m. change (match m with 0%nat => None | 1%nat => Some [u] | _ =>
       match rfs_loop m u tiny huge rt sx (m - 1) u (rfs_k u + 1) 0 1 with None => None | Some x => Some (map (fun i => nth i x 0) perm) end end)
      with (match rfs_loop m u tiny huge rt sx (m - 1) u (rfs_k u + 1) 0 1 with None => None | Some x => Some (map (fun i => nth i x 0) perm) end).
    assert (K : (0 <= Qfloor u < Z.of_nat m)%Z).
    { split.
      - apply Qfloor_resp_le in U0. exact U0.
      - rewrite Zlt_Qlt. pose proof (Qfloor_le u). lra. }
    destruct (loop_sum m u tiny huge rt sx RT SX (m - 1)%nat u (rfs_k u + 1) 0 1) as [xs [A [B [C D]]]].
    + lia.
    + unfold rfs_k. lia.
    + unfold rfs_k. replace (Qfloor u + 1 - 1)%Z with (Qfloor u) by lia. lra.
    + lra.
    + lra.
    + lra.
    + rewrite A. assert (Q : Permutation (map (fun i => nth i xs 0) perm) xs).
      { rewrite P. replace m with (length xs) by lia. rewrite nth_seq_id. reflexivity. }
      eexists. split; [reflexivity|]. split; [rewrite (Permutation_length Q); lia|]. split.
      * apply Forall_forall. intros x I. eapply Permutation_in in I; [|exact Q]. rewrite Forall_forall in C. apply C. assumption.
      * rewrite (total_perm _ _ Q), D. lra.
Qed.
