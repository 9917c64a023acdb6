(** Accepted by the affinity feasibility test: a plan exists. *)
From Coq Require Import NArith ZArith QArith Qround List Bool Lia Arith Permutation Lqa.
From Verif Require Import Base SpecUni SpecQPA ModelNative ModelLP SpecLP ModelAPAFeas SpecAPAFeas ProofLP ProofMatch ProofColor ProofQPA ProofAPAFeas ProofAPASched.
Import ListNotations.
Open Scope Z_scope.

Lemma zsum_filter {A} (f : A -> Z) (p : A -> bool) l : (forall x, In x l -> p x = false -> f x = 0) -> zsum (map f l) = zsum (map f (filter p l)).
Proof.
  induction l as [|a l IH]; intros H; [reflexivity|]. cbn [map zsum filter]. rewrite IH by (intros; apply H; [right|]; assumption).
  destruct (p a) eqn:E; [reflexivity|]. rewrite (H a (or_introl eq_refl) E). reflexivity.
Qed.

(** a sum over a set of processors as a sum over all of them *)
Lemma zsum_support (f : nat -> Z) af m : NoDup af -> (forall c, f c <> 0 -> In c af /\ (c < m)%nat) -> zsum (map f af) = sumf f m.
Proof.
  intros ND H. rewrite sumf_seq. rewrite (zsum_filter f (fun c => negb (f c =? 0)) af), (zsum_filter f (fun c => negb (f c =? 0)) (seq 0 m)).
  - apply zsum_perm, Permutation_map, NoDup_Permutation; [apply NoDup_filter; exact ND|apply NoDup_filter, seq_NoDup|].
    intros c. rewrite !filter_In, in_seq. split; intros [H1 H2]; (split; [|exact H2]); apply negb_true_iff, Z.eqb_neq in H2; destruct (H c H2); [lia|assumption].
  - intros x _ E. apply negb_false_iff, Z.eqb_eq in E. exact E.
  - intros x _ E. apply negb_false_iff, Z.eqb_eq in E. exact E.
Qed.

Lemma common_denominator (L : list Q) : exists K : nat, (1 <= K)%nat /\ forall q, In q L -> exists z, (inject_Z z == inject_Z (Z.of_nat K) * q)%Q.
Proof.
  induction L as [|q L [K [HK H]]]; [exists 1%nat; split; [lia|intros q []]|].
  exists (K * Pos.to_nat (Qden q))%nat. split; [pose proof (Pos2Nat.is_pos (Qden q)); nia|].
  intros r [<-|Hr].
  - exists (Z.of_nat K * Qnum q). rewrite Nat2Z.inj_mul, positive_nat_Z, !inject_Z_mult.
    assert (E : (q == inject_Z (Qnum q) / inject_Z (Zpos (Qden q)))%Q) by (rewrite <- (Qmake_Qdiv (Qnum q) (Qden q)); destruct q; reflexivity).
    rewrite E at 3. field. intros X. apply (inject_Z_injective (Zpos (Qden q)) 0) in X. discriminate.
  - destruct (H r Hr) as [z Hz]. exists (z * Zpos (Qden q)). rewrite Nat2Z.inj_mul, positive_nat_Z, !inject_Z_mult, Hz. ring.
Qed.

Lemma floor_integral q z : (inject_Z z == q)%Q -> (inject_Z (Qfloor q) == q)%Q.
Proof. intros H. rewrite <- (Qfloor_comp _ _ H), Qfloor_Z. exact H. Qed.

Definition dtask : ntask := NTask 0 1 1 0 0 0.

Section Accept.
Variables (ts : ntaskset) (afs : affinities) (m : nat) (x : fvar -> Q).
Hypothesis HL : length ts = length afs.
Hypothesis FE : forall t, In t ts -> 1 <= n_wcet t <= n_period t.
Hypothesis ND : forall af, In af afs -> NoDup af.
Hypothesis NE : forall af, In af afs -> af <> [].
Hypothesis HM : forall af c, In af afs -> In c af -> (c < m)%nat.
Hypothesis FS : feasible (apa_lp ts afs) x.

Definition need (i c : nat) : Q := (n_util (nth i ts dtask) * x (i, c))%Q.
Definition allowed (i c : nat) : bool := existsb (Nat.eqb c) (nth i afs []).

Lemma allowed_iff i c : allowed i c = true <-> exists af, nth_error afs i = Some af /\ In c af.
Proof.
  unfold allowed. rewrite existsb_exists. split.
  - intros [d [H1 H2]]. apply Nat.eqb_eq in H2. subst d. destruct (nth_error afs i) as [af|] eqn:E.
    + rewrite (nth_error_nth _ _ _ E) in H1. eauto.
    + rewrite nth_overflow in H1 by (apply nth_error_None; exact E). destruct H1.
  - intros [af [H1 H2]]. exists c. rewrite (nth_error_nth _ _ _ H1). split; [exact H2|apply Nat.eqb_refl].
Qed.

Lemma shares_exist : exists K, (1 <= K)%nat /\ forall i c, (i < length ts)%nat -> (c < m)%nat -> exists z, (inject_Z z == inject_Z (Z.of_nat K) * need i c)%Q.
Proof.
  destruct (common_denominator (flat_map (fun i => map (need i) (seq 0 m)) (seq 0 (length ts)))) as [K [HK H]].
  exists K. split; [exact HK|]. intros i c Hi Hc. apply H. apply in_flat_map. exists i. split; [apply in_seq; lia|]. apply in_map, in_seq. lia.
Qed.

Lemma util_nonneg i : (0 <= n_util (nth i ts dtask))%Q.
Proof.
  unfold n_util, frac. destruct (nth_in_or_default i ts dtask) as [H| ->]; [|unfold Qle; cbn; lia].
  specialize (FE _ H). apply Qle_shift_div_l; [change 0%Q with (inject_Z 0); rewrite <- Zlt_Qlt; lia|]. rewrite Qmult_0_l. change 0%Q with (inject_Z 0). rewrite <- Zle_Qle. lia.
Qed.

Lemma capacity_sum K (z : nat -> Z) c : (0 <= K)%Q -> forall r i, (forall k t, nth_error r k = Some t -> (inject_Z (z (i + k)%nat) <= K * (n_util t * x ((i + k)%nat, c)))%Q) ->
  (inject_Z (sumf (fun k => z (i + k)%nat) (length r)) <= K * evaluate x (cpu_capacity i r c))%Q.
Proof.
  intros HK. induction r as [|t r IH]; intros i H; cbn [length sumf cpu_capacity].
  - change (evaluate x []) with 0%Q. change (inject_Z 0) with 0%Q. rewrite Qmult_0_r. apply Qle_refl.
  - change (sumf (fun k => z (i + k)%nat) (length r) + z (i + length r)%nat) with (sumf (fun k => z (i + k)%nat) (1 + length r)). rewrite sumf_split. cbn [sumf].
    rewrite inject_Z_plus. change (0 + z (i + 0)%nat) with (z (i + 0)%nat).
    rewrite (sumf_ext (fun k => z (i + (1 + k))%nat) (fun k => z (S i + k)%nat)) by (intros; f_equal; lia).
    assert (A := H O t eq_refl). rewrite Nat.add_0_r in *. assert (B := IH (S i)). 
    assert (C : (inject_Z (sumf (fun k => z (S i + k)%nat) (length r)) <= K * evaluate x (cpu_capacity (S i) r c))%Q).
    { apply B. intros k t' Hk. replace (S i + k)%nat with (i + S k)%nat by lia. apply H. exact Hk. }
    unfold evaluate in *. cbn [fold_right fst snd]. lra.
Qed.

Lemma accept_plan : exists K P, (1 <= K)%nat /\ proper (length ts) m P /\
  (forall i t, nth_error ts i = Some t -> sumf (granted K P i) m * n_period t = Z.of_nat K * n_wcet t) /\
  (forall k c i, (k < K)%nat -> P k c = Some i -> exists af, nth_error afs i = Some af /\ In c af) /\
  (forall i c, (i < length ts)%nat -> (c < m)%nat -> allowed i c = true -> (inject_Z (granted K P i c) == inject_Z (Z.of_nat K) * need i c)%Q).
Proof.
  destruct shares_exist as [K [HK SH]]. apply apa_lp_meaning in FS. destruct FS as [F1 [F2 F3]].
  assert (KQ : (0 <= inject_Z (Z.of_nat K))%Q) by (change 0%Q with (inject_Z 0); rewrite <- Zle_Qle; lia).
  set (z := fun i c => if allowed i c && Nat.ltb i (length ts) then Qfloor (inject_Z (Z.of_nat K) * need i c) else 0).
  assert (ZI : forall i c, (i < length ts)%nat -> (c < m)%nat -> allowed i c = true -> (inject_Z (z i c) == inject_Z (Z.of_nat K) * need i c)%Q).
  { intros i c Hi Hc Ha. unfold z. rewrite Ha, (proj2 (Nat.ltb_lt _ _) Hi). cbn [andb]. destruct (SH i c Hi Hc) as [y Hy]. eapply floor_integral; exact Hy. }
  assert (NN : forall i c, (0 <= need i c)%Q) by (intros i c; unfold need; apply Qmult_le_0_compat; [apply util_nonneg|apply F1]).
  assert (Z0 : forall i c, 0 <= z i c).
  { intros i c. unfold z. destruct (allowed i c && _); [|lia]. change 0 with (Qfloor 0). apply Qfloor_resp_le. apply Qmult_le_0_compat; auto. }
  assert (ZS : forall i c, z i c <> 0 -> exists af, nth_error afs i = Some af /\ In c af).
  { intros i c H. unfold z in H. destruct (allowed i c) eqn:A; [|cbn in H; congruence]. apply allowed_iff; exact A. }
  assert (ROW : forall i t, nth_error ts i = Some t -> sumf (z i) m * n_period t = Z.of_nat K * n_wcet t).
  { intros i t Ht. pose proof (nth_error_Some_lt _ _ _ _ Ht) as Hi. assert (Hi' := Hi). rewrite HL in Hi'. destruct (nth_error_lt_Some _ afs i Hi') as [af Haf]. pose proof (nth_error_In _ _ Haf) as Iaf.
    rewrite <- (zsum_support (z i) af m).
    - apply inject_Z_injective. rewrite inject_Z_mult, inject_zsum.
      rewrite (rsum_ext _ _ (fun c => (inject_Z (Z.of_nat K) * n_util t) * x (i, c))%Q).
      + rewrite rsum_mul. rewrite <- eval_service. rewrite (F2 i af Haf (NE af Iaf)). unfold n_util.
        assert (0 < n_period t) as HP by (specialize (FE t (nth_error_In _ _ Ht)); lia). pose proof (frac_spec (n_wcet t) (n_period t) HP) as FS'.
        rewrite inject_Z_mult. rewrite <- FS'. ring.
      + intros c Hc. rewrite ZI; [|exact Hi|eapply HM; eassumption|apply allowed_iff; eauto]. unfold need. rewrite (nth_error_nth _ _ _ Ht). ring.
    - apply ND. exact Iaf.
    - intros c Hc. destruct (ZS i c Hc) as [af' [H1 H2]]. rewrite Haf in H1. injection H1 as <-. split; [exact H2|eapply HM; eassumption]. }
  destruct (matrix_coloring K (length ts) m z) as [P [PP G]].
  - exact Z0.
  - intros i Hi. destruct (nth_error_lt_Some _ ts i Hi) as [t Ht]. pose proof (ROW i t Ht). specialize (FE t (nth_error_In _ _ Ht)). nia.
  - intros c Hc. destruct (in_dec Nat.eq_dec c (get_all_cpus afs)) as [I|NI].
    + destruct (Nat.eq_dec (length ts) 0) as [E0|N0]; [rewrite E0; cbn; lia|]. assert (NT : ts <> []) by (intros X; rewrite X in N0; cbn in N0; lia). specialize (F3 c I NT). rewrite Zle_Qle.
      pose proof (capacity_sum (inject_Z (Z.of_nat K)) (fun i => z i c) c KQ ts O) as CS. cbn [plus] in CS.
      eapply Qle_trans; [apply CS|].
      * intros k t Hk. cbn [plus]. destruct (allowed k c) eqn:A.
        -- rewrite ZI; [|eapply nth_error_Some_lt; exact Hk|exact Hc|exact A]. unfold need. rewrite (nth_error_nth _ _ _ Hk). apply Qle_refl.
        -- unfold z. rewrite A. cbn [andb]. change (inject_Z 0) with 0%Q. apply Qmult_le_0_compat; [exact KQ|]. specialize (NN k c). unfold need in NN. rewrite (nth_error_nth _ _ _ Hk) in NN. exact NN.
      * rewrite <- (Qmult_1_r (inject_Z (Z.of_nat K))) at 2. rewrite !(Qmult_comm (inject_Z (Z.of_nat K))). apply Qmult_le_compat_r; [exact F3|exact KQ].
    + rewrite sumf_zero; [lia|]. intros i _. destruct (Z.eq_dec (z i c) 0) as [E|NZ]; [exact E|]. exfalso. destruct (ZS i c NZ) as [af [H1 H2]]. apply NI, all_cpus_in. exists af. split; [eapply nth_error_In; exact H1|exact H2].
  - exists K, P. split; [exact HK|]. split; [exact PP|]. split; [|split].
    + intros i t Ht. rewrite (sumf_ext (granted K P i) (z i)); [apply ROW; exact Ht|]. intros c Hc. apply G; [eapply nth_error_Some_lt; exact Ht|exact Hc].
    + intros k c i Hk E. destruct (pr_range _ _ _ PP _ _ _ E) as [Hi Hc]. apply ZS. rewrite <- G by assumption. unfold granted.
      pose proof (sumf_term_le (fun k => b2z (is_task i (P k c))) K k Hk) as T. cbv beta in T. rewrite E in T. cbn [is_task] in T. rewrite Nat.eqb_refl in T. cbn [b2z] in T.
      assert (1 <= sumf (fun k => b2z (is_task i (P k c))) K) by (apply T; intros; apply b2z_range). lia.
    + intros i c Hi Hc Ha. rewrite G by assumption. apply ZI; assumption.
Qed.
End Accept.
