(** Proofs about the iterative Python global EDF tests (bcl_iterative.py, rta.py). *)
From Coq Require Import ZArith QArith List Bool Lia Psatz.
From Verif Require Import Base ModelTasks SpecUni SpecQPA SpecGlobal ProofUni ProofEDF ProofGlobal ModelGEDF ProofGEDF.
Import ListNotations.
Open Scope Z_scope.

(** ** Vectors of slack values *)
Definition le_vec (a b : list Z) : Prop := length a = length b /\ forall i, (i < length a)%nat -> nth i a 0 <= nth i b 0.

Lemma le_vec_refl : forall a, le_vec a a.
Proof. split; [reflexivity|lia]. Qed.
Lemma le_vec_trans : forall a b c, le_vec a b -> le_vec b c -> le_vec a c.
Proof.
  intros a b c [L1 H1] [L2 H2]. split; [congruence|]. intros i Hi. specialize (H1 i Hi). specialize (H2 i ltac:(lia)). lia.
Qed.

Lemma set_nth_length : forall A k (x : A) l, (k < length l)%nat -> length (set_nth k x l) = length l.
Proof. intros. unfold set_nth. rewrite app_length, firstn_length. cbn [length]. rewrite skipn_length. lia. Qed.

Lemma nth_set_nth : forall A k (x : A) l d i, (k < length l)%nat -> nth i (set_nth k x l) d = if Nat.eqb i k then x else nth i l d.
Proof.
  intros A k x l d i H. unfold set_nth. assert (Lf : length (firstn k l) = k) by (rewrite firstn_length; lia).
  destruct (Nat.eqb_spec i k) as [->|E].
  - rewrite app_nth2 by lia. rewrite Lf, Nat.sub_diag. reflexivity.
  - destruct (Nat.lt_ge_cases i k) as [L|L].
    + rewrite app_nth1 by lia. rewrite <- (firstn_skipn k l) at 2. rewrite app_nth1 by lia. reflexivity.
    + rewrite app_nth2 by lia. rewrite Lf. replace (i - k)%nat with (S (i - S k)) by lia. cbn [nth].
      rewrite <- (firstn_skipn (S k) l) at 2. rewrite app_nth2 by (rewrite firstn_length; lia). rewrite firstn_length.
      f_equal. lia.
Qed.

Lemma set_nth_le : forall k x s, (k < length s)%nat -> nth k s 0 <= x -> le_vec s (set_nth k x s).
Proof.
  intros k x s H Hx. split; [symmetry; apply set_nth_length; assumption|]. intros i _. rewrite nth_set_nth by assumption.
  destruct (Nat.eqb_spec i k); subst; lia.
Qed.

Lemma zsum_nth : forall l, zsum l = sumf (fun i => nth i l 0) (length l).
Proof. intros l. rewrite <- (map_id l) at 1. rewrite zsum_map_nth with (d := 0). reflexivity. Qed.

Lemma zsum_set_nth : forall k x s, (k < length s)%nat -> zsum (set_nth k x s) = zsum s + (x - nth k s 0).
Proof.
  intros k x s H. rewrite !zsum_nth, set_nth_length by assumption.
  rewrite (sumf_ext _ (fun i => nth i s 0 + (if Nat.eqb i k then x - nth k s 0 else 0))).
  - rewrite sumf_add. f_equal. rewrite sumf_single with (k0 := k); [rewrite Nat.eqb_refl; reflexivity|assumption|].
    intros i _ Hi. destruct (Nat.eqb_spec i k); [contradiction|reflexivity].
  - intros i _. rewrite nth_set_nth by assumption. destruct (Nat.eqb_spec i k); subst; lia.
Qed.

Lemma sum_combine : forall (f : task * Z -> Z) ts s k, length s = length ts ->
  zsum (map f (others k (combine ts s))) = sumf (fun i => if Nat.eqb i k then 0 else f (nth i ts dt, nth i s 0)) (length ts).
Proof.
  intros f ts s k H. rewrite sumf_others with (d := (dt, 0)). rewrite combine_length, H, Nat.min_id.
  apply sumf_ext. intros i Hi. rewrite combine_nth by congruence. reflexivity.
Qed.

(** ** bcl_iterative.py *)
Section BCLI.
  Variables (m : Z) (ts : taskset).
  Let n := length ts.
  Hypothesis Hm : 1 <= m.
  Hypothesis Hw : Forall wf_task ts.
  Hypothesis Hf : Forall feasible ts.
  Hypothesis Hc : Forall constrained ts.

  Let tk i := nth i ts dt.
  Lemma W_ok : forall i, (i < n)%nat -> wf_task (tk i) /\ feasible (tk i) /\ constrained (tk i).
  Proof. intros i Hi. split; [|split]; apply Forall_nth_lt; assumption. Qed.

  Definition upd (k : nat) (s : list Z) : Z := edf_slack_update k (nth k ts dt) ts s m.
  Definition bterm (k : nat) (s : list Z) (i : nat) : Z :=
    Z.min (bcli_workload (t_deadline (nth k ts dt)) (nth i ts dt) (nth i s 0)) (t_deadline (nth k ts dt) - t_cost (nth k ts dt) + 1).
  Definition bsum (k : nat) (s : list Z) : Z := sumf (fun i => if Nat.eqb i k then 0 else bterm k s i) (length ts).

  Lemma upd_eq : forall k s, length s = n -> upd k s = t_deadline (tk k) - t_cost (tk k) - bsum k s / m.
  Proof. intros k s H. unfold upd, edf_slack_update. rewrite sum_combine by assumption. reflexivity. Qed.

  Lemma bterm_nonneg : forall k s i, (k < n)%nat -> (i < n)%nat -> 0 <= bterm k s i.
  Proof.
    intros k s i Hk Hi. destruct (W_ok k Hk) as [[K1 [K2 K3]] [K4 _]]. destruct (W_ok i Hi) as [[I1 [I2 I3]] _]. unfold tk, feasible in *.
    unfold bterm, bcli_workload. assert (0 <= t_deadline (nth k ts dt) / t_period (nth i ts dt)) by (apply Z.div_pos; lia). nia.
  Qed.

  Lemma bsum_nonneg : forall k s, (k < n)%nat -> 0 <= bsum k s.
  Proof. intros. apply sumf_nonneg. intros i Hi. destruct (Nat.eqb i k); [lia|]. apply bterm_nonneg; assumption. Qed.

  Lemma bsum_anti : forall k a b, le_vec a b -> length a = n -> bsum k b <= bsum k a.
  Proof.
    intros k a b [L H] La. apply sumf_le. intros i Hi. destruct (Nat.eqb i k); [lia|].
    specialize (H i ltac:(fold n in Hi; lia)). unfold bterm, bcli_workload. lia.
  Qed.

  Lemma upd_anti : forall k a b, le_vec a b -> length a = n -> upd k a <= upd k b.
  Proof.
    intros k a b H La. assert (Lb : length b = n) by (destruct H; congruence). rewrite (upd_eq k a La), (upd_eq k b Lb).
    pose proof (bsum_anti k a b H La). pose proof (Z.div_le_mono (bsum k b) (bsum k a) m ltac:(lia) H0). lia.
  Qed.

  Lemma upd_le : forall k s, (k < n)%nat -> length s = n -> upd k s <= t_deadline (tk k) - t_cost (tk k).
  Proof.
    intros k s Hk Hs. rewrite upd_eq by assumption. pose proof (bsum_nonneg k s Hk).
    assert (0 <= bsum k s / m) by (apply Z.div_pos; lia). lia.
  Qed.

  Definition reached (k : nat) (s : list Z) : Prop := exists s0, le_vec s0 s /\ length s0 = n /\ upd k s0 = nth k s 0.
  Definition bInv (s : list Z) : Prop := length s = n /\
    forall k, (k < n)%nat -> 0 <= nth k s 0 <= t_deadline (tk k) - t_cost (tk k) /\ (nth k s 0 = 0 \/ reached k s).
  Definition bOk (k : nat) (s : list Z) : Prop := exists s0, le_vec s0 s /\ length s0 = n /\ 0 <= upd k s0 <= nth k s 0.

  Lemma bOk_mono : forall k a b, (k < n)%nat -> length a = n -> le_vec a b -> bOk k a -> bOk k b.
  Proof.
    intros k a b Hk La H [s0 [H1 [H2 H3]]]. exists s0. split; [eapply le_vec_trans; eassumption|]. split; [assumption|].
    destruct H as [_ H]. specialize (H k ltac:(lia)). lia.
  Qed.

  Lemma bstep : forall k s, (k < n)%nat -> bInv s ->
    let s' := set_nth k (Z.max (nth k s 0) (upd k s)) s in
    bInv s' /\ le_vec s s' /\ (0 <= upd k s -> bOk k s') /\ (nth k s 0 < upd k s -> zsum s < zsum s').
  Proof.
    intros k s Hk [Ls Hs] s'. assert (Hk' : (k < length s)%nat) by lia.
    assert (Hle : le_vec s s') by (apply set_nth_le; [assumption|lia]).
    assert (Ls' : length s' = n) by (unfold s'; rewrite set_nth_length; assumption).
    split; [|split; [assumption|split]].
    - split; [assumption|]. intros i Hi. destruct (Hs i Hi) as [H1 H2].
      assert (N : nth i s' 0 = if Nat.eqb i k then Z.max (nth k s 0) (upd k s) else nth i s 0) by (unfold s'; apply nth_set_nth; assumption).
      destruct (Nat.eqb_spec i k) as [->|E].
      + pose proof (upd_le k s Hk Ls). split; [lia|]. destruct (Z.max_spec (nth k s 0) (upd k s)) as [[M1 M2]|[M1 M2]].
        * right. exists s. split; [assumption|]. split; [assumption|]. lia.
        * destruct H2 as [H2|[s0 [A1 [A2 A3]]]]; [left; lia|]. right. exists s0.
          split; [eapply le_vec_trans; eassumption|]. split; [assumption|]. lia.
      + split; [lia|]. destruct H2 as [H2|[s0 [A1 [A2 A3]]]]; [left; lia|]. right. exists s0.
        split; [eapply le_vec_trans; eassumption|]. split; [assumption|]. lia.
    - intros H. exists s. split; [assumption|]. split; [assumption|]. unfold s'. rewrite nth_set_nth, Nat.eqb_refl by assumption. lia.
    - intros H. unfold s'. rewrite zsum_set_nth by assumption. lia.
  Qed.

  Lemma bfold : forall l s f u, (forall p, In p l -> (fst p < n)%nat /\ snd p = tk (fst p)) -> bInv s ->
    let '(s', f', u') := fold_left (bcli_step m ts) l (s, f, u) in
    bInv s' /\ le_vec s s' /\ (f' = true -> f = true /\ forall p, In p l -> bOk (fst p) s') /\
    zsum s <= zsum s' /\ (u' = true -> u = true \/ zsum s < zsum s').
  Proof.
    induction l as [|[k t] l IH]; intros s f u Hl Hs.
    - cbn. split; [assumption|]. split; [apply le_vec_refl|]. split; [intros; split; [assumption|intros ? []]|]. split; [lia|auto].
    - cbn [fold_left]. destruct (Hl (k, t) (or_introl eq_refl)) as [Hk Ht]. cbn [fst snd] in Hk, Ht. subst t.
      unfold bcli_step at 2. fold (upd k s).
      destruct (bstep k s Hk Hs) as [S1 [S2 [S3 S4]]].
      set (s1 := set_nth k (Z.max (nth k s 0) (upd k s)) s) in *.
      specialize (IH s1 (f && (0 <=? upd k s)) (u || (nth k s 0 <? upd k s)) (fun p Hp => Hl p (or_intror Hp)) S1).
      fold (upd k s) in IH.
      change (edf_slack_update k (tk k) ts s m) with (upd k s). fold s1.
      destruct (fold_left (bcli_step m ts) l (s1, f && (0 <=? upd k s), u || (nth k s 0 <? upd k s))) as [[s' f'] u'].
      destruct IH as [I1 [I2 [I3 [I4 I5]]]]. destruct Hs as [Ls Hs].
      assert (Hz : zsum s <= zsum s1) by (unfold s1; rewrite zsum_set_nth by lia; lia).
      split; [assumption|]. split; [eapply le_vec_trans; eassumption|]. split; [|split; [lia|]].
      + intros E. destruct (I3 E) as [E1 E2]. apply andb_true_iff in E1. destruct E1 as [E1 E3]. split; [assumption|].
        intros p [<-|Hp]; [|auto]. cbn [fst]. apply Z.leb_le in E3. eapply bOk_mono; [assumption| |exact I2|apply S3; assumption].
        destruct S1; assumption.
      + intros E. destruct (I5 E) as [E1|E1]; [|right; lia]. apply orb_true_iff in E1. destruct E1 as [E1|E1]; [left; assumption|].
        apply Z.ltb_lt in E1. specialize (S4 E1). right. lia.
  Qed.

  Lemma indexed_ok : forall p, In p (indexed ts) -> (fst p < n)%nat /\ snd p = tk (fst p).
  Proof.
    intros [k t] H. apply indexed_in in H. cbn [fst snd]. split; [eapply nth_error_Some_lt; eassumption|].
    unfold tk. symmetry. apply nth_error_nth. assumption.
  Qed.
  Lemma indexed_all : forall k, (k < n)%nat -> In (k, tk k) (indexed ts).
  Proof. intros. apply indexed_in. apply nth_error_nth'. assumption. Qed.

  Lemma bround : forall s, bInv s -> let '(s', f', u') := bcli_round m ts s in
    bInv s' /\ (f' = true -> forall k, (k < n)%nat -> bOk k s') /\ (u' = true -> zsum s < zsum s').
  Proof.
    intros s Hs. unfold bcli_round. pose proof (bfold (indexed ts) s true false indexed_ok Hs) as H.
    destruct (fold_left (bcli_step m ts) (indexed ts) (s, true, false)) as [[s' f'] u'].
    destruct H as [H1 [H2 [H3 [H4 H5]]]]. split; [assumption|]. split.
    - intros E k Hk. destruct (H3 E) as [_ X]. apply (X (k, tk k)). apply indexed_all. assumption.
    - intros E. destruct (H5 E) as [X|X]; [discriminate|assumption].
  Qed.

  Lemma bloop_spec : forall fuel lim round s u f b s', bInv s -> (f = true -> forall k, (k < n)%nat -> bOk k s) ->
    bcli_loop fuel m ts lim round s u f = Some (b, s') ->
    bInv s' /\ (b = true -> forall k, (k < n)%nat -> bOk k s').
  Proof.
    induction fuel; intros lim round s u f b s' Hs Hfk H; cbn [bcli_loop] in H.
    - destruct (continue lim round u f); [discriminate|]. injection H as <- <-. auto.
    - destruct (continue lim round u f); [|injection H as <- <-; auto].
      pose proof (bround s Hs) as R. destruct (bcli_round m ts s) as [[s1 f1] u1]. destruct R as [R1 [R2 _]].
      eapply IHfuel; eassumption.
  Qed.

  Definition cap : Z := sumf (fun k => t_deadline (nth k ts dt) - t_cost (nth k ts dt)) (length ts).
  Lemma bInv_cap : forall s, bInv s -> zsum s <= cap.
  Proof. intros s [L H]. rewrite zsum_nth, L. apply sumf_le. intros k Hk. apply (H k Hk). Qed.

  Lemma bloop_terminates : forall fuel lim round s u f, bInv s -> (u = true -> cap - zsum s < Z.of_nat fuel) ->
    bcli_loop fuel m ts lim round s u f <> None.
  Proof.
    induction fuel; intros lim round s u f Hs Hu; cbn [bcli_loop].
    - unfold continue. destruct u; [|discriminate]. pose proof (bInv_cap s Hs). specialize (Hu eq_refl). lia.
    - destruct (continue lim round u f) eqn:E; [|discriminate].
      pose proof (bround s Hs) as R. destruct (bcli_round m ts s) as [[s1 f1] u1]. destruct R as [R1 [_ R3]].
      apply IHfuel; [assumption|]. intros E1. specialize (R3 E1). unfold continue in E. destruct u; [|discriminate].
      specialize (Hu eq_refl). lia.
  Qed.

  Lemma bInv_init : bInv (map (fun _ => 0) ts).
  Proof.
    split; [apply map_length|]. intros k Hk. rewrite nth_zero. destruct (W_ok k Hk) as [_ [X _]]. unfold feasible in X. split; [lia|left; reflexivity].
  Qed.

  Lemma bcli_work_ge : forall k i s, (k < n)%nat -> (i < n)%nat -> 0 <= s ->
    wl (t_cost (tk i)) (t_period (tk i)) (t_deadline (tk k) - s) <= bcli_workload (t_deadline (tk k)) (tk i) s.
  Proof.
    intros k i s Hk Hi Hs. destruct (W_ok k Hk) as [[K1 [K2 K3]] _]. destruct (W_ok i Hi) as [[I1 [I2 I3]] [I4 I5]].
    unfold feasible, constrained in *. unfold bcli_workload.
    pose proof (div_spec (t_deadline (tk k)) (t_period (tk i)) ltac:(lia)) as X.
    assert (0 <= t_deadline (tk k) / t_period (tk i)) by (apply Z.div_pos; lia).
    apply wl_le; lia.
  Qed.
End BCLI.

Lemma bcli_sound : forall fuel (m : nat) ts lim slack, (1 <= m)%nat -> Forall wf_task ts -> Forall constrained ts -> Forall feasible ts ->
  bcli_test fuel (Z.of_nat m) ts lim = Some (true, slack) ->
  forall s sc, legal_edf (map e_of ts) s -> gvalid (length (map e_of ts)) m s sc -> gedf (map e_of ts) m s sc ->
  forall j, (fst j < length ts)%nat -> responds s sc j (t_deadline (nth (fst j) ts dt) - nth (fst j) slack 0).
Proof.
  intros fuel m ts lim slack Hm Hw Hc Hf H s sc Hl Hv Hp j Hj. unfold bcli_test in H.
  assert (Hm' : 1 <= Z.of_nat m) by lia.
  apply (bloop_spec (Z.of_nat m) ts Hm' Hw Hf Hc) in H; [|apply bInv_init; assumption|discriminate]. destruct H as [[L I] B].
  specialize (B eq_refl).
  apply (core_sound m ts slack Hw Hc L); try assumption.
  - intros i Hi. destruct (I i Hi) as [X _]. unfold resp. lia.
  - intros k Hk. exists (bterm ts k slack). destruct (I k Hk) as [X0 X]. split.
    + intros i Hi Hik. unfold bterm. apply Z.min_le_compat.
      * eapply Z.le_trans; [apply interfering_le_due|]. apply (bcli_work_ge ts Hw Hf Hc); try assumption. apply (I i Hi).
      * unfold resp. lia.
    + fold (bsum ts k slack). 
      assert (R : nth k slack 0 <= upd (Z.of_nat m) ts k slack).
      { assert (Q : reached (Z.of_nat m) ts k slack).
        { destruct X as [X|X]; [|assumption]. destruct (B k Hk) as [s0 [A1 [A2 A3]]]. exists s0. split; [assumption|]. split; [assumption|]. lia. }
        destruct Q as [s0 [A1 [A2 A3]]]. rewrite <- A3. apply upd_anti; assumption. }
      rewrite upd_eq in R by assumption. unfold resp.
      pose proof (div_spec (bsum ts k slack) (Z.of_nat m) ltac:(lia)) as D. nia.
Qed.
