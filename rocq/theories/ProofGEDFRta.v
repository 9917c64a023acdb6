(** Proofs about the Python response-time test for global EDF (rta.py). *)
From Coq Require Import ZArith QArith List Bool Lia Psatz.
From Verif Require Import Base ModelTasks SpecUni SpecQPA SpecGlobal ProofUni ProofEDF ProofGlobal ModelGEDF ProofGEDF ProofGEDFIter.
Import ListNotations.
Open Scope Z_scope.

(** ** The workload formula is monotone over all integers *)
Definition wla (C T y : Z) : Z := y / T * C + Z.min C (y mod T).

Lemma wla_mono : forall C T y z, 0 <= C <= T -> 1 <= T -> y <= z -> wla C T y <= wla C T z.
Proof.
  intros C T y z HC HT H. unfold wla. pose proof (div_spec y T ltac:(lia)) as Y. pose proof (div_spec z T ltac:(lia)) as Z0.
  pose proof (Z.mod_eq y T ltac:(lia)) as My. pose proof (Z.mod_eq z T ltac:(lia)) as Mz.
  assert (L : y / T <= z / T) by (apply Z.div_le_mono; lia).
  destruct (Z.eq_dec (y / T) (z / T)) as [E|E].
  - rewrite <- E in *. lia.
  - nia.
Qed.

Lemma wla_wl : forall C T y, 0 <= y -> wla C T y = wl C T y.
Proof. intros. unfold wla, wl. destruct (Z.ltb_spec y 0); [lia|reflexivity]. Qed.

Lemma wla_nonneg : forall C T y, 0 <= C -> 1 <= T -> 0 <= y -> 0 <= wla C T y.
Proof. intros. rewrite wla_wl by assumption. apply wl_nonneg; assumption. Qed.

Lemma edf_work_ge : forall C T D s, 0 <= C <= T -> 1 <= T -> 0 <= s -> 0 <= D ->
  wl C T (D - s) <= D / T * C + Z.min C (Z.max 0 (D mod T - s)).
Proof.
  intros C T D s HC HT Hs HD. pose proof (div_spec D T ltac:(lia)) as Y. pose proof (Z.mod_eq D T ltac:(lia)) as M.
  assert (P : 0 <= D / T) by (apply Z.div_pos; lia).
  replace (D mod T - s) with (D - s - D / T * T) by lia. apply wl_le; lia.
Qed.

(** ** The fixpoint iteration of rta_fixpoint over an abstract monotone estimate *)
Section Fix.
  Variables (est : Z -> Z) (C D delta : Z).
  Hypothesis Hmono : forall x y, C <= x -> x <= y -> est x <= est y.
  Hypothesis Hge : forall x, C <= x -> C <= est x.
  Hypothesis HCD : C <= D.

  Lemma fix_result : forall fuel last r, C <= last -> rta_fix_loop fuel est D delta last (est last) = Some r ->
    C <= r /\ (r <= D -> est r = r).
  Proof.
    induction fuel; intros last r Hl H; cbn [rta_fix_loop] in H;
      destruct (Z.eqb_spec last (est last)) as [E|E]; cbn [negb andb] in H;
      try (injection H as <-; rewrite <- !E; split; [assumption|intros _; congruence]).
    - destruct (Z.leb_spec (est last) D); [discriminate|]. injection H as <-. split; [apply Hge; assumption|lia].
    - destruct (Z.leb_spec (est last) D); [|injection H as <-; split; [apply Hge; assumption|lia]].
      match type of H with rta_fix_loop _ _ _ _ ?r' _ = _ => apply (IHfuel r'); [|exact H] end.
      pose proof (Hge last Hl).
      destruct (Z.ltb_spec last (est last)); destruct (Z.ltb_spec (est last - last) delta); cbn [andb]; lia.
  Qed.

  (** falling phase: est last <= last is kept *)
  Lemma fix_down : forall fuel last, C <= last -> est last <= last -> last - C < Z.of_nat fuel ->
    rta_fix_loop fuel est D delta last (est last) <> None.
  Proof.
    induction fuel; intros last Hl He Hf; [lia|]. cbn [rta_fix_loop].
    destruct (Z.eqb_spec last (est last)) as [E|E]; cbn [negb andb]; [discriminate|].
    destruct (Z.leb_spec (est last) D); [|discriminate].
    destruct (Z.ltb_spec last (est last)); [lia|]. cbn [andb]. pose proof (Hge last Hl).
    apply IHfuel; [assumption|apply Hmono; lia|lia].
  Qed.

  (** rising phase *)
  Lemma fix_terminates : forall fuel last, C <= last -> last <= D -> (D - last) + (D - C) + 1 < Z.of_nat fuel ->
    rta_fix_loop fuel est D delta last (est last) <> None.
  Proof.
    induction fuel; intros last Hl HD Hf; [lia|].
    destruct (Z.le_gt_cases (est last) last) as [L|L].
    - apply fix_down; lia.
    - cbn [rta_fix_loop]. destruct (Z.eqb_spec last (est last)) as [E|E]; [lia|]. cbn [negb andb].
      destruct (Z.leb_spec (est last) D); [|discriminate].
      destruct (Z.ltb_spec last (est last)); [|lia]. cbn [andb].
      destruct (Z.ltb_spec (est last - last) delta); apply IHfuel; lia.
  Qed.

  (** with steps of at most one, the least fixpoint is found *)
  Lemma fix_least : forall X, delta <= 1 -> C <= X -> est X <= X -> forall fuel last r, C <= last -> last <= X ->
    rta_fix_loop fuel est D delta last (est last) = Some r -> r <= X.
  Proof.
    intros X Hd HX He. induction fuel; intros last r Hl HlX H; cbn [rta_fix_loop] in H; pose proof (Hmono last X Hl HlX).
    - destruct (negb (last =? est last) && (est last <=? D)); [discriminate|]. injection H as <-. lia.
    - destruct (negb (last =? est last) && (est last <=? D)); [|injection H as <-; lia].
      destruct (Z.ltb_spec last (est last)); [destruct (Z.ltb_spec (est last - last) delta); [lia|]|]; cbn [andb] in H;
        (eapply IHfuel; [| |exact H]; [apply Hge; assumption|lia]).
  Qed.
End Fix.

(** ** rta.py *)
Section RTA.
  Variables (m : Z) (ts : taskset).
  Let n := length ts.
  Hypothesis Hm : 1 <= m.
  Hypothesis Hw : Forall wf_task ts.
  Hypothesis Hf : Forall feasible ts.
  Hypothesis Hc : Forall constrained ts.

  Definition rest (k : nat) (s : list Z) (R : Z) : Z := response_estimate k (nth k ts dt) ts s m R.
  Definition rterm (k : nat) (s : list Z) (R : Z) (i : nat) : Z :=
    Z.min (Z.min (rta_interfering_workload R (nth i ts dt) (nth i s 0))
                 (edf_interfering_workload (t_deadline (nth k ts dt)) (nth i ts dt) (nth i s 0)))
          (R - t_cost (nth k ts dt) + 1).
  Definition rsum (k : nat) (s : list Z) (R : Z) : Z := sumf (fun i => if Nat.eqb i k then 0 else rterm k s R i) (length ts).

  Lemma rest_eq : forall k s R, length s = n -> rest k s R = t_cost (nth k ts dt) + rsum k s R / m.
  Proof using. intros k s R H. unfold rest, response_estimate. rewrite sum_combine by assumption. reflexivity. Qed.

  Lemma T_ok : forall i, (i < n)%nat -> let t := nth i ts dt in
    0 <= t_cost t /\ t_cost t <= t_deadline t /\ t_deadline t <= t_period t /\ 1 <= t_deadline t /\ 1 <= t_period t.
  Proof using Hw Hf Hc.
    intros i Hi. cbn zeta. assert (A : wf_task (nth i ts dt)) by (apply Forall_nth_lt; assumption).
    assert (B : feasible (nth i ts dt)) by (apply Forall_nth_lt; assumption).
    assert (Cc : constrained (nth i ts dt)) by (apply Forall_nth_lt; assumption).
    destruct A as [A1 [A2 A3]]. unfold feasible, constrained in *. lia.
  Qed.

  Lemma rterm_mono : forall k a b R R' i, (k < n)%nat -> (i < n)%nat -> nth i a 0 <= nth i b 0 -> R <= R' -> rterm k b R i <= rterm k a R' i.
  Proof using Hw Hf Hc.
    intros k a b R R' i Hk Hi Ha HR. destruct (T_ok i Hi) as [I1 [I2 [I3 [I4 I5]]]].
    unfold rterm. apply Z.min_le_compat; [|lia]. apply Z.min_le_compat.
    - apply wla_mono; lia.
    - unfold edf_interfering_workload. lia.
  Qed.

  Lemma rsum_mono : forall k a b R R', (k < n)%nat -> le_vec a b -> length a = n -> R <= R' -> rsum k b R <= rsum k a R'.
  Proof using Hw Hf Hc.
    intros k a b R R' Hk [L H] La HR. apply sumf_le. intros i Hi. destruct (Nat.eqb i k); [lia|].
    apply rterm_mono; try assumption. apply H. rewrite La. exact Hi.
  Qed.

  Lemma rest_mono : forall k a b R R', (k < n)%nat -> le_vec a b -> length a = n -> R <= R' -> rest k b R <= rest k a R'.
  Proof using Hm Hw Hf Hc.
    intros k a b R R' Hk H La HR. assert (Lb : length b = n) by (destruct H; congruence).
    rewrite (rest_eq k a R' La), (rest_eq k b R Lb).
    pose proof (rsum_mono k a b R R' Hk H La HR) as X. pose proof (Z.div_le_mono _ _ m ltac:(lia) X). lia.
  Qed.

  (** slack vectors within range *)
  Definition inr (s : list Z) : Prop := length s = n /\
    forall k, (k < n)%nat -> 0 <= nth k s 0 <= t_deadline (nth k ts dt) - t_cost (nth k ts dt).

  Lemma rest_ge : forall k s R, (k < n)%nat -> inr s -> t_cost (nth k ts dt) <= R -> t_cost (nth k ts dt) <= rest k s R.
  Proof using Hm Hw Hf Hc.
    intros k s R Hk [Ls Hs] HR. rewrite (rest_eq k s R Ls).
    assert (0 <= rsum k s R).
    { apply sumf_nonneg. intros i Hi. destruct (Nat.eqb i k); [lia|]. specialize (Hs i Hi).
      destruct (T_ok i Hi) as [I1 [I2 [I3 [I4 I5]]]]. destruct (T_ok k Hk) as [K1 [K2 [K3 [K4 K5]]]]. unfold rterm.
      apply Z.min_glb; [apply Z.min_glb|lia].
      - apply wla_nonneg; lia.
      - unfold edf_interfering_workload. assert (0 <= t_deadline (nth k ts dt) / t_period (nth i ts dt)) by (apply Z.div_pos; lia). nia. }
    assert (0 <= rsum k s R / m) by (apply Z.div_pos; lia). lia.
  Qed.

  Lemma rta_fixpoint_result : forall fuel delta k s r, (k < n)%nat -> inr s -> rta_fixpoint fuel k (nth k ts dt) ts s m delta = Some r ->
    t_cost (nth k ts dt) <= r /\ (r <= t_deadline (nth k ts dt) -> rest k s r = r).
  Proof using Hm Hw Hf Hc.
    intros fuel delta k s r Hk Hs H. unfold rta_fixpoint in H. fold (rest k s) in H. destruct (T_ok k Hk) as [K1 [K2 [K3 [K4 K5]]]].
    eapply fix_result; try exact H; try lia. intros x Hx. apply rest_ge; assumption.
  Qed.

  Lemma rta_fixpoint_terminates : forall fuel delta k s, (k < n)%nat -> inr s ->
    2 * (t_deadline (nth k ts dt) - t_cost (nth k ts dt)) + 1 < Z.of_nat fuel ->
    rta_fixpoint fuel k (nth k ts dt) ts s m delta <> None.
  Proof using Hm Hw Hf Hc.
    intros fuel delta k s Hk Hs Hfu. unfold rta_fixpoint. fold (rest k s). destruct (T_ok k Hk) as [K1 [K2 [K3 [K4 K5]]]].
    apply fix_terminates with (C := t_cost (nth k ts dt)); try lia.
    - intros x y Hx Hxy. apply rest_mono; try assumption; [apply le_vec_refl|apply Hs].
    - intros x Hx. apply rest_ge; assumption.
  Qed.

  Lemma rta_fixpoint_least : forall fuel delta k s r X, delta <= 1 -> (k < n)%nat -> inr s -> t_cost (nth k ts dt) <= X -> rest k s X <= X ->
    rta_fixpoint fuel k (nth k ts dt) ts s m delta = Some r -> r <= X.
  Proof using Hm Hw Hf Hc.
    intros fuel delta k s r X Hd Hk Hs HX He H. unfold rta_fixpoint in H. fold (rest k s) in H.
    eapply fix_least with (C := t_cost (nth k ts dt)) (X := X); [| | | | | | |exact H]; try assumption; try apply Z.le_refl.
    - intros x y Hx Hxy. apply rest_mono; try assumption; [apply le_vec_refl|apply Hs].
    - intros x Hx. apply rest_ge; assumption.
  Qed.

  (** *** The invariant; [h] is a ghost vector with the largest slack ever recorded *)
  Definition supported (k : nat) (h : list Z) (v : Z) : Prop := exists s0, le_vec s0 h /\ length s0 = n /\
    rest k s0 (t_deadline (nth k ts dt) - v) <= t_deadline (nth k ts dt) - v.
  Definition rInv (s h : list Z) : Prop := inr s /\ inr h /\ le_vec s h /\
    forall k, (k < n)%nat -> nth k h 0 = 0 \/ supported k h (nth k h 0).
  Definition rOk (k : nat) (s h : list Z) : Prop := supported k h (nth k s 0).

  Lemma supported_mono : forall k h h' v, le_vec h h' -> supported k h v -> supported k h' v.
  Proof using. intros k h h' v H [s0 [A [B Q]]]. exists s0. split; [eapply le_vec_trans; eassumption|split; assumption]. Qed.

  Lemma rstep : forall k s h r, (k < n)%nat -> rInv s h -> t_cost (nth k ts dt) <= r <= t_deadline (nth k ts dt) -> rest k s r = r ->
    let s' := set_nth k (t_deadline (nth k ts dt) - r) s in
    exists h', rInv s' h' /\ rOk k s' h' /\ forall i, (i < n)%nat -> rOk i s h -> i <> k -> rOk i s' h'.
  Proof using Hw Hf Hc.
    intros k s h r Hk [[Ls Is] [[Lh Ih] [Hle Hsup]]] Hr He s'. set (v := t_deadline (nth k ts dt) - r) in *.
    set (h' := set_nth k (Z.max (nth k h 0) v) h).
    assert (Ns : forall i, nth i s' 0 = if Nat.eqb i k then v else nth i s 0) by (intros; apply nth_set_nth; rewrite Ls; exact Hk).
    assert (Nh : forall i, nth i h' 0 = if Nat.eqb i k then Z.max (nth k h 0) v else nth i h 0) by (intros; apply nth_set_nth; rewrite Lh; exact Hk).
    assert (Hhh : le_vec h h') by (apply set_nth_le; [rewrite Lh; exact Hk|lia]).
    assert (Ls' : length s' = n) by (unfold s'; rewrite set_nth_length; [assumption|rewrite Ls; exact Hk]).
    assert (Lh' : length h' = n) by (unfold h'; rewrite set_nth_length; [assumption|rewrite Lh; exact Hk]).
    assert (Sv : supported k h' v).
    { exists s. split; [eapply le_vec_trans; eassumption|]. split; [assumption|]. unfold v.
      replace (t_deadline (nth k ts dt) - (t_deadline (nth k ts dt) - r)) with r by lia. lia. }
    exists h'. split; [|split].
    - split; [|split; [|split]].
      + split; [assumption|]. intros i Hi. specialize (Ns i). specialize (Is i Hi). destruct (Nat.eqb_spec i k) as [->|]; lia.
      + split; [assumption|]. intros i Hi. specialize (Nh i). specialize (Ih i Hi). destruct (Nat.eqb_spec i k) as [->|]; lia.
      + split; [congruence|]. intros i Hi. rewrite Ls' in Hi. specialize (Ns i). specialize (Nh i). destruct Hle as [_ Hle].
        assert (Hi' : (i < length s)%nat) by (rewrite Ls; exact Hi). specialize (Hle i Hi'). destruct (Nat.eqb_spec i k) as [->|]; lia.
      + intros i Hi. rewrite Nh. clear Nh. destruct (Nat.eqb_spec i k) as [E|E].
        * rewrite E. destruct (Z.max_spec (nth k h 0) v) as [[M1 M2]|[M1 M2]]; rewrite M2.
          -- right. exact Sv.
          -- destruct (Hsup k Hk) as [X|X]; [left; exact X|right; eapply supported_mono; eassumption].
        * destruct (Hsup i Hi) as [X|X]; [left; exact X|right; eapply supported_mono; eassumption].
    - unfold rOk. rewrite Ns, Nat.eqb_refl. exact Sv.
    - intros i Hi Ho Hik. unfold rOk in *. rewrite Ns. destruct (Nat.eqb_spec i k); [contradiction|]. eapply supported_mono; eassumption.
  Qed.

  Lemma set_nth_same : forall k s, (k < length s)%nat -> set_nth k (nth k s 0) s = s.
  Proof using.
    clear. intros k s H. apply nth_ext with (d := 0) (d' := 0); [apply set_nth_length; assumption|].
    intros i _. rewrite nth_set_nth by assumption. destruct (Nat.eqb_spec i k); subst; reflexivity.
  Qed.

  (** the step of the model in terms of the fixpoint *)
  Lemma rta_step_cases : forall fuel delta k s f u s' f' u', (k < n)%nat -> inr s ->
    rta_step fuel m delta ts (Some (s, f, u)) (k, nth k ts dt) = Some (s', f', u') ->
    exists r, rta_fixpoint fuel k (nth k ts dt) ts s m delta = Some r /\
     ((r <= t_deadline (nth k ts dt) /\ s' = set_nth k (t_deadline (nth k ts dt) - r) s /\ f' = f /\
        (u' = true -> u = true \/ nth k s 0 <> t_deadline (nth k ts dt) - r)) \/
      (t_deadline (nth k ts dt) < r /\ s' = s /\ f' = false /\ u' = u)).
  Proof using.
    intros fuel delta k s f u s' f' u' Hk [Ls Is] H. cbn [rta_step] in H.
    destruct (rta_fixpoint fuel k (nth k ts dt) ts s m delta) as [r|]; [|discriminate]. exists r. split; [reflexivity|].
    destruct (Z.leb_spec r (t_deadline (nth k ts dt))).
    - left. destruct (Z.eqb_spec (t_deadline (nth k ts dt) - r) (nth k s 0)) as [E|E]; cbn [negb] in H; injection H as <- <- <-.
      + split; [assumption|]. split; [rewrite E, set_nth_same; [reflexivity|rewrite Ls; exact Hk]|]. split; [reflexivity|auto].
      + split; [assumption|]. split; [reflexivity|]. split; [reflexivity|]. intros _. right. lia.
    - right. injection H as <- <- <-. auto.
  Qed.

  Lemma fold_none : forall fuel delta l, fold_left (rta_step fuel m delta ts) l None = None.
  Proof using. induction l; [reflexivity|exact IHl]. Qed.

  Lemma rfold : forall fuel delta l s h f u s' f' u', (forall p, In p l -> (fst p < n)%nat /\ snd p = nth (fst p) ts dt) -> rInv s h ->
    fold_left (rta_step fuel m delta ts) l (Some (s, f, u)) = Some (s', f', u') ->
    exists h', rInv s' h' /\ (f' = true -> f = true /\ (forall p, In p l -> rOk (fst p) s' h') /\
       forall i, (i < n)%nat -> rOk i s h -> rOk i s' h').
  Proof using Hm Hw Hf Hc.
    intros fuel delta. induction l as [|[k t] l IH]; intros s h f u s' f' u' Hl Hs H.
    - cbn in H. injection H as <- <- <-. exists h. split; [assumption|]. intros ->. split; [reflexivity|]. split; [intros ? []|auto].
    - cbn [fold_left] in H. destruct (Hl (k, t) (or_introl eq_refl)) as [Hk Ht]. cbn [fst snd] in Hk, Ht. subst t.
      destruct (rta_step fuel m delta ts (Some (s, f, u)) (k, nth k ts dt)) as [[[s1 f1] u1]|] eqn:E;
        [|rewrite fold_none in H; discriminate].
      apply rta_step_cases in E; [|assumption|apply Hs]. destruct E as [r [Er [[R1 [R2 [R3 R4]]]|[R1 [R2 [R3 R4]]]]]].
      + pose proof (rta_fixpoint_result fuel delta k s r Hk (proj1 Hs) Er) as [F1 F2].
        destruct (rstep k s h r Hk Hs ltac:(lia) (F2 R1)) as [h1 [S1 [S2 S3]]]. rewrite <- R2 in S1, S2, S3.
        destruct (IH s1 h1 f1 u1 s' f' u' (fun p Hp => Hl p (or_intror Hp)) S1 H) as [h' [I1 I2]].
        exists h'. split; [assumption|]. intros Ef. destruct (I2 Ef) as [I3 [I4 I5]]. split; [congruence|]. split.
        * intros p [<-|Hp]; [|auto]. cbn [fst]. apply I5; assumption.
        * intros i Hi Ho. apply I5; [assumption|]. destruct (Nat.eq_dec i k) as [->|N]; [assumption|apply S3; assumption].
      + subst s1 f1 u1. destruct (IH s h false u s' f' u' (fun p Hp => Hl p (or_intror Hp)) Hs H) as [h' [I1 I2]].
        exists h'. split; [assumption|]. intros Ef. destruct (I2 Ef) as [I3 _]. discriminate.
  Qed.

  Lemma rround : forall fuel delta s h s' f' u', rInv s h -> rta_round fuel m delta ts s = Some (s', f', u') ->
    exists h', rInv s' h' /\ (f' = true -> forall k, (k < n)%nat -> rOk k s' h').
  Proof using Hm Hw Hf Hc.
    intros fuel delta s h s' f' u' Hs H. apply rfold with (h := h) in H; [|apply indexed_ok|assumption].
    destruct H as [h' [A B]]. exists h'. split; [assumption|]. intros E k Hk. destruct (B E) as [_ [X _]].
    apply (X (k, nth k ts dt)). apply indexed_all. assumption.
  Qed.

  Lemma rloop_spec : forall fuel ffuel delta lim round s h u f b s', rInv s h -> (f = true -> forall k, (k < n)%nat -> rOk k s h) ->
    rta_loop fuel ffuel m delta ts lim round s u f = Some (b, s') ->
    exists h', rInv s' h' /\ (b = true -> forall k, (k < n)%nat -> rOk k s' h').
  Proof using Hm Hw Hf Hc.
    induction fuel; intros ffuel delta lim round s h u f b s' Hs Hfk H; cbn [rta_loop] in H.
    - destruct (continue lim round u f); [discriminate|]. injection H as <- <-. exists h. auto.
    - destruct (continue lim round u f); [|injection H as <- <-; exists h; auto].
      destruct (rta_round ffuel m delta ts s) as [[[s1 f1] u1]|] eqn:E; [|discriminate].
      destruct (rround ffuel delta s h s1 f1 u1 Hs E) as [h1 [A B]]. eapply IHfuel; eassumption.
  Qed.

  Lemma inr_init : inr (map (fun _ => 0) ts).
  Proof using Hw Hf Hc.
    split; [apply map_length|]. intros k Hk. rewrite nth_zero. destruct (T_ok k Hk) as [K1 [K2 _]]. lia.
  Qed.
  Lemma rInv_init : rInv (map (fun _ => 0) ts) (map (fun _ => 0) ts).
  Proof using Hw Hf Hc.
    split; [apply inr_init|]. split; [apply inr_init|]. split; [apply le_vec_refl|]. intros k _. left. apply nth_zero.
  Qed.

  (** *** Termination *)
  Definition ffuel_ok (ffuel : nat) : Prop := forall k, (k < n)%nat -> 2 * (t_deadline (nth k ts dt) - t_cost (nth k ts dt)) + 1 < Z.of_nat ffuel.

  Lemma rta_step_some : forall ffuel delta k s f u, ffuel_ok ffuel -> (k < n)%nat -> inr s ->
    exists s' f' u', rta_step ffuel m delta ts (Some (s, f, u)) (k, nth k ts dt) = Some (s', f', u') /\ inr s'.
  Proof using Hm Hw Hf Hc.
    intros ffuel delta k s f u Hff Hk Hs.
    destruct (rta_step ffuel m delta ts (Some (s, f, u)) (k, nth k ts dt)) as [[[s' f'] u']|] eqn:E.
    - exists s', f', u'. split; [reflexivity|]. apply rta_step_cases in E; try assumption.
      destruct E as [r [Er [[R1 [R2 _]]|[R1 [R2 _]]]]]; [|subst; assumption].
      destruct (rta_fixpoint_result ffuel delta k s r Hk Hs Er) as [F1 _]. destruct Hs as [Ls Is]. subst s'.
      split; [rewrite set_nth_length; [assumption|rewrite Ls; exact Hk]|].
      intros i Hi. rewrite nth_set_nth by (rewrite Ls; exact Hk). specialize (Is i Hi). destruct (Nat.eqb_spec i k) as [->|]; lia.
    - exfalso. cbn [rta_step] in E. destruct (rta_fixpoint ffuel k (nth k ts dt) ts s m delta) as [r|] eqn:Er.
      + destruct (r <=? t_deadline (nth k ts dt)); [|discriminate]. destruct (negb _); discriminate.
      + revert Er. apply rta_fixpoint_terminates; auto.
  Qed.

  Lemma rfold_some : forall ffuel delta l s f u, ffuel_ok ffuel -> (forall p, In p l -> (fst p < n)%nat /\ snd p = nth (fst p) ts dt) -> inr s ->
    exists s' f' u', fold_left (rta_step ffuel m delta ts) l (Some (s, f, u)) = Some (s', f', u') /\ inr s'.
  Proof using Hm Hw Hf Hc.
    intros ffuel delta l. induction l as [|[k t] l IH]; intros s f u Hff Hl Hs.
    - exists s, f, u. split; [reflexivity|assumption].
    - destruct (Hl (k, t) (or_introl eq_refl)) as [Hk Ht]. cbn [fst snd] in Hk, Ht. subst t. cbn [fold_left].
      destruct (rta_step_some ffuel delta k s f u Hff Hk Hs) as [s1 [f1 [u1 [E1 E2]]]]. rewrite E1.
      apply IH; [assumption|intros p Hp; apply Hl; right; exact Hp|assumption].
  Qed.

  Lemma rround_some : forall ffuel delta s, ffuel_ok ffuel -> inr s -> exists s' f' u', rta_round ffuel m delta ts s = Some (s', f', u') /\ inr s'.
  Proof using Hm Hw Hf Hc. intros. apply rfold_some; [assumption|apply indexed_ok|assumption]. Qed.

  (** a positive round limit bounds the number of rounds *)
  Lemma rloop_limited : forall fuel ffuel delta lim round s u f, ffuel_ok ffuel -> inr s -> 1 <= lim -> lim - round <= Z.of_nat fuel ->
    rta_loop fuel ffuel m delta ts lim round s u f <> None.
  Proof using Hm Hw Hf Hc.
    induction fuel; intros ffuel delta lim round s u f Hff Hs Hl Hr; cbn [rta_loop].
    - unfold continue. destruct (Z.eqb_spec lim 0); [lia|]. destruct (Z.ltb_spec round lim); [lia|].
      rewrite andb_false_r. cbn [andb]. destruct (u && negb f); discriminate || (cbn; discriminate).
    - destruct (continue lim round u f); [|discriminate].
      destruct (rround_some ffuel delta s Hff Hs) as [s1 [f1 [u1 [E1 E2]]]]. rewrite E1. apply IHfuel; try assumption. lia.
  Qed.

  (** without a limit, steps of at most one make the slack values rise *)
  Definition rMon (s : list Z) : Prop := inr s /\ forall k, (k < n)%nat -> nth k s 0 = 0 \/ supported k s (nth k s 0).

  Lemma rmon_fold : forall ffuel delta l s f u s' f' u', delta <= 1 -> (forall p, In p l -> (fst p < n)%nat /\ snd p = nth (fst p) ts dt) ->
    rMon s -> fold_left (rta_step ffuel m delta ts) l (Some (s, f, u)) = Some (s', f', u') ->
    rMon s' /\ zsum s <= zsum s' /\ (u' = true -> u = true \/ zsum s < zsum s').
  Proof using Hm Hw Hf Hc.
    intros ffuel delta l. induction l as [|[k t] l IH]; intros s f u s' f' u' Hd Hl Hs H.
    - cbn in H. injection H as <- <- <-. split; [assumption|]. split; [lia|auto].
    - cbn [fold_left] in H. destruct (Hl (k, t) (or_introl eq_refl)) as [Hk Ht]. cbn [fst snd] in Hk, Ht. subst t.
      destruct (rta_step ffuel m delta ts (Some (s, f, u)) (k, nth k ts dt)) as [[[s1 f1] u1]|] eqn:E;
        [|rewrite fold_none in H; discriminate].
      apply rta_step_cases in E; [|assumption|apply Hs]. destruct E as [r [Er [[R1 [R2 [R3 R4]]]|[R1 [R2 [R3 R4]]]]]].
      + destruct Hs as [Is Hsup]. pose proof (rta_fixpoint_result ffuel delta k s r Hk Is Er) as [F1 F2]. specialize (F2 R1).
        assert (Hup : nth k s 0 <= t_deadline (nth k ts dt) - r).
        { destruct (Hsup k Hk) as [X|[s0 [A1 [A2 A3]]]]; [lia|].
          assert (r <= t_deadline (nth k ts dt) - nth k s 0); [|lia].
          apply (rta_fixpoint_least ffuel delta k s r _ Hd Hk Is); [destruct Is as [_ Is]; specialize (Is k Hk); lia| |exact Er].
          eapply Z.le_trans; [|exact A3]. apply rest_mono; try assumption. lia. }
        destruct Is as [Ls Is]. assert (Hk' : (k < length s)%nat) by (rewrite Ls; exact Hk).
        assert (Hle : le_vec s s1) by (subst s1; apply set_nth_le; assumption).
        assert (Hz : zsum s1 = zsum s + (t_deadline (nth k ts dt) - r - nth k s 0)) by (subst s1; apply zsum_set_nth; assumption).
        assert (Ns : forall i, nth i s1 0 = if Nat.eqb i k then t_deadline (nth k ts dt) - r else nth i s 0) by (intros; subst s1; apply nth_set_nth; assumption).
        assert (M1 : rMon s1).
        { split; [split; [destruct Hle; congruence|]|].
          - intros i Hi. specialize (Ns i). specialize (Is i Hi). destruct (Nat.eqb_spec i k) as [->|]; lia.
          - intros i Hi. rewrite Ns. clear Ns. destruct (Nat.eqb_spec i k) as [N|N].
            + rewrite N. right. exists s. split; [assumption|]. split; [assumption|].
              replace (t_deadline (nth k ts dt) - (t_deadline (nth k ts dt) - r)) with r by lia. lia.
            + destruct (Hsup i Hi) as [X|X]; [left; assumption|right; eapply supported_mono; eassumption]. }
        destruct (IH s1 f1 u1 s' f' u' Hd (fun p Hp => Hl p (or_intror Hp)) M1 H) as [I1 [I2 I3]].
        split; [assumption|]. split; [lia|]. intros E. destruct (I3 E) as [E1|E1]; [|right; lia].
        destruct (R4 E1) as [E2|E2]; [left; assumption|right; lia].
      + subst s1 f1 u1. apply (IH s false u s' f' u' Hd (fun p Hp => Hl p (or_intror Hp)) Hs H).
  Qed.

  Lemma rMon_cap : forall s, inr s -> zsum s <= cap ts.
  Proof using. intros s [L H]. rewrite zsum_nth, L. apply sumf_le. intros k Hk. apply (H k Hk). Qed.

  Lemma rloop_unlimited : forall fuel ffuel delta lim round s u f, delta <= 1 -> ffuel_ok ffuel -> rMon s ->
    (u = true -> cap ts - zsum s < Z.of_nat fuel) ->
    rta_loop fuel ffuel m delta ts lim round s u f <> None.
  Proof using Hm Hw Hf Hc.
    induction fuel; intros ffuel delta lim round s u f Hd Hff Hs Hu; cbn [rta_loop].
    - unfold continue. destruct u; [|discriminate]. pose proof (rMon_cap s (proj1 Hs)). specialize (Hu eq_refl). lia.
    - destruct (continue lim round u f) eqn:E; [|discriminate].
      destruct (rround_some ffuel delta s Hff (proj1 Hs)) as [s1 [f1 [u1 [E1 E2]]]]. rewrite E1.
      apply rmon_fold in E1; [|assumption|apply indexed_ok|assumption]. destruct E1 as [M1 [M2 M3]].
      apply IHfuel; try assumption. intros Eu. destruct (M3 Eu) as [X|X]; [discriminate|].
      unfold continue in E. destruct u; [|discriminate]. specialize (Hu eq_refl). lia.
  Qed.

  Lemma rMon_init : rMon (map (fun _ => 0) ts).
  Proof using Hw Hf Hc. split; [apply inr_init|]. intros k _. left. apply nth_zero. Qed.
End RTA.

Lemma responds_le : forall s sc j a b, a <= b -> responds s sc j a -> responds s sc j b.
Proof. intros s sc j a b H [q [Q1 Q2]]. exists q. split; [lia|assumption]. Qed.

Lemma rta_sound : forall fuel ffuel (m : nat) ts lim delta slack, (1 <= m)%nat -> Forall wf_task ts -> Forall constrained ts -> Forall feasible ts ->
  rta_test fuel ffuel (Z.of_nat m) ts lim delta = Some (true, slack) ->
  (length slack = length ts /\ forall k, (k < length ts)%nat -> 0 <= nth k slack 0 <= t_deadline (nth k ts dt) - t_cost (nth k ts dt)) /\
  forall s sc, legal_edf (map e_of ts) s -> gvalid (length (map e_of ts)) m s sc -> gedf (map e_of ts) m s sc ->
  forall j, (fst j < length ts)%nat -> responds s sc j (t_deadline (nth (fst j) ts dt) - nth (fst j) slack 0).
Proof.
  intros fuel ffuel m ts lim delta slack Hm Hw Hc Hf H. unfold rta_test in H.
  assert (Hm' : 1 <= Z.of_nat m) by lia.
  eapply (rloop_spec (Z.of_nat m) ts Hm' Hw Hf Hc) in H; [|apply rInv_init; assumption|discriminate].
  destruct H as [h [[Is [[Lh Ih] [Hle Hsup]]] B]]. specialize (B eq_refl). split; [exact Is|].
  intros s sc Hl Hv Hp j Hj. apply responds_le with (a := resp ts h (fst j)).
  { unfold resp. destruct Hle as [_ Hle]. destruct Is as [Ls _]. specialize (Hle (fst j) ltac:(rewrite Ls; assumption)). lia. }
  apply (core_sound m ts h Hw Hc Lh); try assumption.
  - intros i Hi. specialize (Ih i Hi). unfold resp. lia.
  - intros k Hk. exists (rterm ts k h (resp ts h k)). split.
    + intros i Hi Hik. destruct (T_ok ts Hw Hf Hc i Hi) as [I1 [I2 [I3 [I4 I5]]]]. destruct (T_ok ts Hw Hf Hc k Hk) as [K1 [K2 [K3 [K4 K5]]]].
      pose proof (Ih i Hi) as Ihi. pose proof (Ih k Hk) as Ihk. unfold rterm. apply Z.min_le_compat; [|lia].
      unfold interfering. rewrite !et_of. cbn [e_of e_cost e_deadline e_period]. unfold resp.
      rewrite Z.min_comm. apply Z.min_le_compat.
      * unfold rta_interfering_workload. fold (wla (t_cost (nth i ts dt)) (t_period (nth i ts dt))
          (t_deadline (nth k ts dt) - nth k h 0 + t_deadline (nth i ts dt) - t_cost (nth i ts dt) - nth i h 0)).
        rewrite wla_wl by lia. apply Z.eq_le_incl. f_equal. lia.
      * replace (t_deadline (nth k ts dt) - (t_deadline (nth i ts dt) - (t_deadline (nth i ts dt) - nth i h 0)))
          with (t_deadline (nth k ts dt) - nth i h 0) by lia. unfold edf_interfering_workload. apply edf_work_ge; lia.
    + fold (rsum ts k h (resp ts h k)).
      assert (Q : supported (Z.of_nat m) ts k h (nth k h 0)).
      { destruct (Hsup k Hk) as [X|X]; [|exact X]. specialize (B k Hk). unfold rOk in B.
        replace (nth k h 0) with (nth k slack 0); [exact B|]. destruct Is as [Ls Is]. specialize (Is k Hk).
        destruct Hle as [_ Hle]. specialize (Hle k ltac:(rewrite Ls; assumption)). lia. }
      destruct Q as [s0 [A1 [A2 A3]]].
      assert (R : rest (Z.of_nat m) ts k h (resp ts h k) <= resp ts h k).
      { eapply Z.le_trans; [|exact A3]. apply rest_mono; try assumption. unfold resp. lia. }
      rewrite rest_eq in R by assumption.
      pose proof (div_spec (rsum ts k h (resp ts h k)) (Z.of_nat m) ltac:(lia)) as D. nia.
Qed.
