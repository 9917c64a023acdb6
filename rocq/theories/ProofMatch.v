(** Assigning unit slots to jobs: if Hall's condition holds, every job gets its
    demand inside its window and no slot is used more than [m] times. *)
From Coq Require Import ZArith List Bool Lia Arith.
From Verif Require Import Base SpecUni.
Import ListNotations.
Open Scope Z_scope.

Lemma jeqb_spec a b : reflect (a = b) (job_eqb a b).
Proof.
  destruct a as [a1 a2], b as [b1 b2]. unfold job_eqb; cbn. destruct (Nat.eqb_spec a1 b1) as [E1|D1]; cbn; [|constructor; congruence].
  destruct (Nat.eqb_spec a2 b2) as [E2|D2]; constructor; congruence.
Qed.

Lemma jeqb_refl a : job_eqb a a = true.
Proof. destruct (jeqb_spec a a); congruence. Qed.

Lemma zsum_sumf_swap {A} (f : A -> nat -> Z) l n : zsum (map (fun x => sumf (f x) n) l) = sumf (fun t => zsum (map (fun x => f x t) l)) n.
Proof.
  induction l as [|x l IH]; cbn [map zsum].
  - symmetry. apply sumf_zero. reflexivity.
  - rewrite IH, <- sumf_add. reflexivity.
Qed.

Section Matching.
Variables (L : list job) (N : nat) (win : job -> nat -> bool) (d : job -> Z) (m : Z).
Variable ND : NoDup L.

Definition row (A : job -> nat -> bool) (j : job) : Z := sumf (fun t => b2z (A j t)) N.
Definition col (A : job -> nat -> bool) (t : nat) : Z := zsum (map (fun j => b2z (A j t)) L).

Record assign (A : job -> nat -> bool) : Prop := {
  as_in : forall j t, A j t = true -> In j L /\ (t < N)%nat /\ win j t = true;
  as_row : forall j, In j L -> row A j <= d j;
  as_col : forall t, (t < N)%nat -> col A t <= m }.

Definition upd (A : job -> nat -> bool) (j : job) (t : nat) (b : bool) : job -> nat -> bool :=
  fun j' t' => if job_eqb j j' && Nat.eqb t t' then b else A j' t'.

Lemma upd_other A j t b j' t' : j' <> j \/ t' <> t -> upd A j t b j' t' = A j' t'.
Proof. unfold upd. destruct (jeqb_spec j j') as [E|D]; cbn; [|reflexivity]. destruct (Nat.eqb_spec t t') as [E2|D2]; [|reflexivity]. intros [H|H]; congruence. Qed.

Lemma upd_same A j t b : upd A j t b j t = b.
Proof. unfold upd. rewrite jeqb_refl, Nat.eqb_refl. reflexivity. Qed.

Lemma sumf_point f g n t x : (t < n)%nat -> (forall u, u <> t -> f u = g u) -> f t = g t + x -> sumf f n = sumf g n + x.
Proof.
  intros Ht Hu Hx. induction n as [|n IH]; [lia|]. cbn [sumf]. destruct (Nat.eq_dec t n) as [->|NE].
  - rewrite Hx. rewrite (sumf_ext f g n) by (intros k Hk; apply Hu; lia). lia.
  - rewrite (Hu n) by congruence. rewrite IH by lia. lia.
Qed.

Lemma zsum_point {A} (f g : A -> Z) l a x : NoDup l -> In a l -> (forall u, u <> a -> f u = g u) -> f a = g a + x -> zsum (map f l) = zsum (map g l) + x.
Proof.
  intros HN Ha Hu Hx. induction l as [|b l IH]; [destruct Ha|]. inversion HN as [|b' l' NI HN']. subst. cbn [map zsum]. destruct Ha as [->|Ha].
  - rewrite Hx. rewrite (zsum_map_ext _ f g l) by (intros y Hy; apply Hu; congruence). lia.
  - rewrite (Hu b) by congruence. rewrite IH by assumption. lia.
Qed.

Lemma row_other A j t b j' : j' <> j -> row (upd A j t b) j' = row A j'.
Proof. intros H. apply sumf_ext. intros k _. rewrite upd_other by auto. reflexivity. Qed.

Lemma row_upd A j t b : (t < N)%nat -> row (upd A j t b) j = row A j + (b2z b - b2z (A j t)).
Proof.
  intros H. apply (sumf_point _ (fun u => b2z (A j u)) N t); [exact H| |].
  - intros u Hu. rewrite upd_other by auto. reflexivity.
  - rewrite upd_same. lia.
Qed.

Lemma col_other A j t b t' : t' <> t -> col (upd A j t b) t' = col A t'.
Proof. intros H. apply zsum_map_ext. intros k _. rewrite upd_other by auto. reflexivity. Qed.

Lemma col_upd A j t b : In j L -> col (upd A j t b) t = col A t + (b2z b - b2z (A j t)).
Proof.
  intros H. apply (zsum_point _ (fun u => b2z (A u t)) L j); [exact ND|exact H| |].
  - intros u Hu. rewrite upd_other by auto. reflexivity.
  - rewrite upd_same. lia.
Qed.

(** alternating paths without repeated jobs; the head is the last job *)
Inductive apath (A : job -> nat -> bool) (j0 : job) : list job -> Prop :=
| ap_nil : apath A j0 [j0]
| ap_step j p t j' : apath A j0 (j :: p) -> (t < N)%nat -> win j t = true -> A j t = false -> In j' L -> A j' t = true -> ~ In j' (j :: p) -> apath A j0 (j' :: j :: p).

Lemma apath_ext A B j0 p : apath A j0 p -> (forall x t, In x p -> A x t = B x t) -> (forall x t, A x t = true -> B x t = true) \/ (forall x t, In x p -> A x t = B x t) -> apath B j0 p.
Proof.
  intros H. induction H as [|j p t j' H IH Ht Hw Hf Hj' Ht' HN]; intros HE _; [constructor|].
  apply (ap_step B j0 j p t j').
  - apply IH; [intros x u Hx; apply HE; right; exact Hx|]. right. intros x u Hx. apply HE. right. exact Hx.
  - exact Ht.
  - exact Hw.
  - rewrite <- HE; [exact Hf|right; left; reflexivity].
  - exact Hj'.
  - rewrite <- HE; [exact Ht'|left; reflexivity].
  - exact HN.
Qed.

Lemma apath_prefix A j0 p x : apath A j0 p -> In x p -> exists q, apath A j0 (x :: q).
Proof.
  intros H. induction H as [|j p t j' H IH Ht Hw Hf Hj' Ht' HN]; intros Hx.
  - destruct Hx as [<-|[]]. exists []. constructor.
  - destruct Hx as [<-|Hx]; [|apply IH; exact Hx]. exists (j :: p). apply (ap_step A j0 j p t j'); assumption.
Qed.

Lemma apath_start A j0 p : apath A j0 p -> In j0 p.
Proof. intros H. induction H; [left; reflexivity|right; assumption]. Qed.

Lemma augment j0 p : forall A j t, apath A j0 (j :: p) -> assign A -> In j0 L -> row A j0 < d j0 -> In j L ->
  (t < N)%nat -> win j t = true -> A j t = false -> col A t < m ->
  exists B, assign B /\ row B j0 = row A j0 + 1 /\ forall x, x <> j0 -> row B x = row A x.
Proof.
  induction p as [|i p IH]; intros A j t HP HA HJ HR HjL Ht Hw Hf HC.
  - assert (EJ : j = j0) by (inversion HP; reflexivity). subst j. exists (upd A j0 t true). assert (R : row (upd A j0 t true) j0 = row A j0 + 1) by (rewrite row_upd by exact Ht; rewrite Hf; cbn; lia).
    split; [|split; [exact R|intros x Hx; apply row_other; exact Hx]]. destruct HA as [A1 A2 A3]. constructor.
    + intros x u Hx. destruct (jeqb_spec j0 x) as [<-|D]; [|rewrite upd_other in Hx by auto; auto]. destruct (Nat.eqb_spec t u) as [<-|D]; [auto|rewrite upd_other in Hx by auto; auto].
    + intros x Hx. destruct (jeqb_spec j0 x) as [<-|D]; [rewrite R; lia|rewrite row_other by auto; auto].
    + intros u Hu. destruct (Nat.eqb_spec t u) as [<-|D]; [|rewrite col_other by auto; auto]. rewrite col_upd by exact HJ. rewrite Hf. cbn. lia.
  - inversion HP as [|j1 p1 t' j2 HP' Ht' Hw' Hf' HjL' HT HN]; subst.
    assert (NT : t <> t') by (intros ->; congruence).
    assert (NI : i <> j) by (intros ->; apply HN; left; reflexivity).
    assert (N0 : j0 <> j) by (intros <-; apply HN; apply (apath_start A j0 _ HP')).
    set (B := upd (upd A j t true) j t' false).
    assert (E1 : row B j = row A j). { unfold B. rewrite row_upd by exact Ht'. rewrite row_upd by exact Ht. rewrite upd_other by (right; congruence). rewrite Hf, HT. cbn. lia. }
    assert (E2 : forall x, x <> j -> row B x = row A x). { intros x Hx. unfold B. rewrite !row_other by exact Hx. reflexivity. }
    assert (C1 : col B t' = col A t' - 1). { unfold B. rewrite col_upd by exact HjL. rewrite col_other by congruence. rewrite upd_other by (right; congruence). rewrite HT. cbn. lia. }
    assert (C2 : col B t = col A t + 1). { unfold B. rewrite col_other by congruence. rewrite col_upd by exact HjL. rewrite Hf. cbn. lia. }
    assert (C3 : forall u, u <> t -> u <> t' -> col B u = col A u). { intros u H1 H2. unfold B. rewrite !col_other by congruence. reflexivity. }
    assert (X : forall x u, x <> j -> B x u = A x u). { intros x u Hx. unfold B. rewrite !upd_other by auto. reflexivity. }
    assert (HB : assign B).
    { destruct HA as [A1 A2 A3]. constructor.
      - intros x u Hx. destruct (jeqb_spec x j) as [->|D]; [|rewrite X in Hx by exact D; auto]. unfold B in Hx.
        destruct (Nat.eq_dec u t') as [->|D1]; [rewrite upd_same in Hx; discriminate|]. rewrite upd_other in Hx by auto.
        destruct (Nat.eq_dec u t) as [->|D2]; [auto|]. rewrite upd_other in Hx by auto. auto.
      - intros x Hx. destruct (jeqb_spec x j) as [->|D]; [rewrite E1; auto|rewrite E2 by exact D; auto].
      - intros u Hu. destruct (Nat.eq_dec u t) as [->|D1]; [rewrite C2; lia|]. destruct (Nat.eq_dec u t') as [->|D2]; [rewrite C1; pose proof (A3 t' Ht'); lia|]. rewrite C3 by assumption. auto. }
    assert (HPB : apath B j0 (i :: p)).
    { assert (EX : forall x u, In x (i :: p) -> A x u = B x u) by (intros x u Hx; symmetry; apply X; intros ->; contradiction). apply (apath_ext A B j0 _ HP' EX). right. exact EX. }
    assert (HiL : In i L).
    { inversion HP'; subst; assumption. }
    destruct (IH B i t' HPB HB HJ) as [B' [HB' [R1 R2]]].
    + rewrite E2 by exact N0. exact HR.
    + exact HiL.
    + exact Ht'.
    + exact Hw'.
    + rewrite X by exact NI. exact Hf'.
    + rewrite C1. pose proof (as_col A HA t' Ht'). lia.
    + exists B'. split; [exact HB'|]. split; [rewrite R1, E2 by exact N0; reflexivity|]. intros x Hx. rewrite R2 by exact Hx. destruct (jeqb_spec x j) as [->|D]; [exact E1|apply E2; exact D].
Qed.

Definition step_out (A : job -> nat -> bool) (R : list job) (j' : job) : bool :=
  negb (existsb (job_eqb j') R) && existsb (fun j => existsb (fun t => win j t && negb (A j t) && A j' t) (seq 0 N)) R.

Lemma in_jobs j R : existsb (job_eqb j) R = true <-> In j R.
Proof.
  rewrite existsb_exists. split; [intros [y [Y1 Y2]]; destruct (jeqb_spec j y); congruence|]. intros H. exists j. split; [exact H|apply jeqb_refl].
Qed.

Lemma closure A j0 : In j0 L -> exists R, (forall j, In j R -> In j L /\ exists p, apath A j0 (j :: p)) /\ In j0 R /\
  forall j t j', In j R -> (t < N)%nat -> win j t = true -> A j t = false -> In j' L -> A j' t = true -> In j' R.
Proof.
  intros HJ. assert (G : forall n R, (length L - length R <= n)%nat -> NoDup R -> (forall j, In j R -> In j L /\ exists p, apath A j0 (j :: p)) -> In j0 R ->
    exists R', (forall j, In j R' -> In j L /\ exists p, apath A j0 (j :: p)) /\ In j0 R' /\
    forall j t j', In j R' -> (t < N)%nat -> win j t = true -> A j t = false -> In j' L -> A j' t = true -> In j' R').
  { induction n as [|n IH]; intros R HL HN HR H0; destruct (existsb (step_out A R) L) eqn:E.
    1, 3: apply existsb_exists in E; destruct E as [j' [L' S']]; unfold step_out in S'; apply andb_true_iff in S'; destruct S' as [S1 S2];
      apply negb_true_iff in S1; assert (NI : ~ In j' R) by (rewrite <- in_jobs; congruence).
    - exfalso. assert (LE : (length (j' :: R) <= length L)%nat).
      { apply NoDup_incl_length; [constructor; assumption|]. intros x [<-|Hx]; [exact L'|apply (HR x Hx)]. }
      cbn in LE. lia.
    - apply (IH (j' :: R)); [cbn [length]; lia|constructor; assumption| |right; exact H0].
      intros x [<-|Hx]; [|apply (HR x Hx)]. split; [exact L'|]. apply existsb_exists in S2. destruct S2 as [j [Hj S2]]. apply existsb_exists in S2. destruct S2 as [t [Ht S2]].
      apply in_seq in Ht. apply andb_true_iff in S2. destruct S2 as [S2 S3]. apply andb_true_iff in S2. destruct S2 as [S2 S4]. apply negb_true_iff in S4.
      destruct (HR j Hj) as [_ [p Hp]]. destruct (existsb (job_eqb j') (j :: p)) eqn:I.
      + apply (apath_prefix A j0 _ j' Hp). apply in_jobs. exact I.
      + assert (I' : ~ In j' (j :: p)) by (rewrite <- in_jobs; congruence). exists (j :: p). apply (ap_step A j0 j p t j' Hp); try assumption. lia.
    - exists R. split; [exact HR|]. split; [exact H0|]. intros j t j' Hj Ht Hw Hf HL' HT. destruct (existsb (job_eqb j') R) eqn:E2; [apply in_jobs; exact E2|]. exfalso.
      assert (C : existsb (step_out A R) L = true); [|congruence]. apply existsb_exists. exists j'. split; [exact HL'|]. unfold step_out. rewrite E2. cbn.
      apply existsb_exists. exists j. split; [exact Hj|]. apply existsb_exists. exists t. split; [apply in_seq; lia|]. rewrite Hw, Hf, HT. reflexivity.
    - exists R. split; [exact HR|]. split; [exact H0|]. intros j t j' Hj Ht Hw Hf HL' HT. destruct (existsb (job_eqb j') R) eqn:E2; [apply in_jobs; exact E2|]. exfalso.
      assert (C : existsb (step_out A R) L = true); [|congruence]. apply existsb_exists. exists j'. split; [exact HL'|]. unfold step_out. rewrite E2. cbn.
      apply existsb_exists. exists j. split; [exact Hj|]. apply existsb_exists. exists t. split; [apply in_seq; lia|]. rewrite Hw, Hf, HT. reflexivity. }
  apply (G (length L) [j0]); [lia|repeat constructor; intros []| |left; reflexivity].
  intros j [<-|[]]. split; [exact HJ|]. exists []. constructor.
Qed.

Lemma b2z_and a b : b2z (a && b) = b2z a * b2z b.
Proof. destruct a, b; reflexivity. Qed.

Lemma sumf_split_by f (p : nat -> bool) n : sumf f n = sumf (fun t => f t * b2z (p t)) n + sumf (fun t => f t * b2z (negb (p t))) n.
Proof. rewrite <- sumf_add. apply sumf_ext. intros k _. destruct (p k); cbn; lia. Qed.

Lemma zsum_lt {A} (f g : A -> Z) l a : In a l -> (forall x, In x l -> f x <= g x) -> f a < g a -> zsum (map f l) < zsum (map g l).
Proof.
  intros Ha H Hl. induction l as [|b l IH]; [destruct Ha|]. cbn [map zsum]. destruct Ha as [->|Ha].
  - pose proof (zsum_map_le _ f g l (fun x Hx => H x (or_intror Hx))). lia.
  - specialize (IH Ha (fun x Hx => H x (or_intror Hx))). pose proof (H b (or_introl eq_refl)). lia.
Qed.

(** Hall's condition *)
Variable hall : forall (PJ : job -> bool) (PT : nat -> bool),
  zsum (map (fun j => b2z (PJ j) * d j) L) <=
  zsum (map (fun j => b2z (PJ j) * sumf (fun t => b2z (win j t && negb (PT t))) N) L) + m * sumf (fun t => b2z (PT t)) N.

Lemma improve A j0 : assign A -> In j0 L -> row A j0 < d j0 ->
  exists B, assign B /\ row B j0 = row A j0 + 1 /\ forall x, x <> j0 -> row B x = row A x.
Proof.
  intros HA HJ HR. destruct (closure A j0 HJ) as [R [R1 [R2 R3]]].
  set (PT := fun t => existsb (fun j => win j t && negb (A j t)) R).
  destruct (existsb (fun t => PT t && (col A t <? m)) (seq 0 N)) eqn:E.
  - apply existsb_exists in E. destruct E as [t [Ht E]]. apply in_seq in Ht. apply andb_true_iff in E. destruct E as [E1 E2]. apply Z.ltb_lt in E2.
    unfold PT in E1. apply existsb_exists in E1. destruct E1 as [j [Hj E1]]. apply andb_true_iff in E1. destruct E1 as [E1 E3]. apply negb_true_iff in E3.
    destruct (R1 j Hj) as [JL [p Hp]]. apply (augment j0 p A j t Hp HA HJ HR JL); try assumption. lia.
  - exfalso. assert (FULL : forall t, (t < N)%nat -> PT t = true -> m <= col A t).
    { intros t Ht HP. destruct (Z.ltb_spec (col A t) m) as [C|C]; [|exact C]. exfalso. assert (X : existsb (fun t => PT t && (col A t <? m)) (seq 0 N) = true); [|congruence].
      apply existsb_exists. exists t. split; [apply in_seq; lia|]. rewrite HP. cbn. apply Z.ltb_lt. exact C. }
    set (PJ := fun j => existsb (job_eqb j) R).
    pose proof (hall PJ PT) as H.
    assert (S1 : zsum (map (fun j => b2z (PJ j) * row A j) L) =
      zsum (map (fun j => b2z (PJ j) * sumf (fun t => b2z (win j t && negb (PT t))) N) L) + sumf (fun t => b2z (PT t) * col A t) N).
    { transitivity (zsum (map (fun j => b2z (PJ j) * sumf (fun t => b2z (win j t && negb (PT t))) N + sumf (fun t => b2z (PT t) * b2z (A j t)) N) L)).
      - apply zsum_map_ext. intros j Hj. unfold row. rewrite (sumf_split_by _ PT). destruct (PJ j) eqn:EJ; unfold PJ in EJ.
        + apply in_jobs in EJ. rewrite Z.mul_add_distr_l. rewrite Z.add_comm. f_equal.
          * f_equal. apply sumf_ext. intros t Ht. rewrite <- b2z_and. f_equal. destruct (PT t) eqn:ET; cbn; [rewrite !andb_false_r; reflexivity|]. rewrite !andb_true_r.
            destruct (A j t) eqn:EA; [symmetry; apply (as_in A HA j t EA)|]. destruct (win j t) eqn:EW; [|reflexivity]. exfalso.
            assert (X : PT t = true); [|congruence]. unfold PT. apply existsb_exists. exists j. split; [exact EJ|]. rewrite EW, EA. reflexivity.
          * cbn [b2z]. rewrite Z.mul_1_l. apply sumf_ext. intros t _. lia.
        + cbn [b2z]. rewrite !Z.mul_0_l. symmetry. rewrite Z.add_0_l. apply sumf_zero. intros t Ht. destruct (PT t) eqn:ET; [|reflexivity]. destruct (A j t) eqn:EA; [|reflexivity]. exfalso.
          unfold PT in ET. apply existsb_exists in ET. destruct ET as [i [Hi ET]]. apply andb_true_iff in ET. destruct ET as [E1 E2]. apply negb_true_iff in E2.
          pose proof (R3 i t j Hi Ht E1 E2 Hj EA) as X. apply in_jobs in X. unfold PJ in EJ. congruence.
      - rewrite zsum_map_add. f_equal. rewrite zsum_sumf_swap. apply sumf_ext. intros t _. unfold col. rewrite zsum_map_mul. reflexivity. }
    assert (S2 : m * sumf (fun t => b2z (PT t)) N <= sumf (fun t => b2z (PT t) * col A t) N).
    { rewrite <- sumf_mul. apply sumf_le. intros t Ht. destruct (PT t) eqn:ET; cbn [b2z]; [|lia]. pose proof (FULL t Ht ET). lia. }
    assert (S3 : zsum (map (fun j => b2z (PJ j) * row A j) L) < zsum (map (fun j => b2z (PJ j) * d j) L)).
    { apply (zsum_lt _ _ L j0 HJ).
      - intros x Hx. pose proof (as_row A HA x Hx). destruct (PJ x); cbn [b2z]; lia.
      - assert (E0 : PJ j0 = true) by (apply in_jobs; exact R2). rewrite E0. cbn [b2z]. lia. }
    lia.
Qed.

Lemma complete : (forall j, In j L -> 0 <= d j) -> 0 <= m -> exists A, assign A /\ forall j, In j L -> row A j = d j.
Proof.
  intros HD HM. assert (G : forall n A, assign A -> zsum (map (fun j => d j - row A j) L) <= Z.of_nat n -> exists B, assign B /\ forall j, In j L -> row B j = d j).
  { induction n as [|n IH]; intros A HA HS; destruct (existsb (fun j => row A j <? d j) L) eqn:E.
    1, 3: apply existsb_exists in E; destruct E as [j0 [HJ E]]; apply Z.ltb_lt in E.
    - exfalso. assert (X : zsum (map (fun _ : job => 0) L) < zsum (map (fun j => d j - row A j) L)).
      { apply (zsum_lt _ _ L j0 HJ); [|cbv beta; lia]. intros x Hx. pose proof (as_row A HA x Hx). lia. }
      rewrite zsum_map_const in X. lia.
    - destruct (improve A j0 HA HJ E) as [B [HB [B1 B2]]]. apply (IH B HB).
      assert (X : zsum (map (fun j => d j - row B j) L) = zsum (map (fun j => d j - row A j) L) + -1).
      { apply (zsum_point _ (fun j => d j - row A j) L j0 (-1) ND HJ); [|cbv beta; lia]. intros u Hu. rewrite B2 by exact Hu. reflexivity. }
      lia.
    - exists A. split; [exact HA|]. intros j Hj. pose proof (as_row A HA j Hj). destruct (Z.ltb_spec (row A j) (d j)) as [C|C]; [|lia]. exfalso.
      assert (X : existsb (fun j => row A j <? d j) L = true); [|congruence]. apply existsb_exists. exists j. split; [exact Hj|]. apply Z.ltb_lt. exact C.
    - exists A. split; [exact HA|]. intros j Hj. pose proof (as_row A HA j Hj). destruct (Z.ltb_spec (row A j) (d j)) as [C|C]; [|lia]. exfalso.
      assert (X : existsb (fun j => row A j <? d j) L = true); [|congruence]. apply existsb_exists. exists j. split; [exact Hj|]. apply Z.ltb_lt. exact C. }
  apply (G (Z.to_nat (zsum (map (fun j => d j - row (fun _ _ => false) j) L))) (fun _ _ => false)); [|lia].
  constructor.
  - intros; discriminate.
  - intros j Hj. unfold row. rewrite sumf_zero by reflexivity. apply HD. exact Hj.
  - intros t _. unfold col. rewrite (zsum_map_const _ 0). lia.
Qed.
End Matching.
