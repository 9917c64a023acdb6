(** Lemmas for C24. *)
From Coq Require Import ZArith QArith Qround Lqa List Bool Lia Permutation.
From Verif Require Import Base ModelTasks ModelBinpack SpecBinpack ProofBinpack ModelRUN SpecRUN.
Import ListNotations.
Open Scope Q_scope.

Lemma load_total : forall l, load rate l == total_rate l.
Proof. induction l as [|s l IH]; [reflexivity|]. cbn [load]. unfold total_rate in *. cbn [map qsum fold_right]. unfold qsum in IH. apply Qplus_comp; [reflexivity|exact IH]. Qed.
Lemma total_cons : forall s l, total_rate (s :: l) == rate s + total_rate l.
Proof. intros. unfold total_rate. cbn [map qsum fold_right]. reflexivity. Qed.
Lemma total_app : forall l1 l2, total_rate (l1 ++ l2) == total_rate l1 + total_rate l2.
Proof. induction l1 as [|s l IH]; intros; cbn [app]; rewrite ?total_cons; [unfold total_rate; cbn; ring|]. rewrite IH. ring. Qed.
Lemma total_perm : forall l1 l2, Permutation l1 l2 -> total_rate l1 == total_rate l2.
Proof. intros l1 l2 H. induction H; rewrite ?total_cons; try lra. Qed.
Lemma total_nonneg : forall l, rates_ok l -> 0 <= total_rate l.
Proof. intros l H. induction H as [|s l [H1 H2] _ IH]; [apply Qle_refl|]. rewrite total_cons. lra. Qed.

(** ** The packing *)
Definition big (g h : list server) : Prop := 1 < total_rate g + total_rate h.

Definition pinv (bins : list (list server)) : Prop :=
  (bins = [[]] \/ Forall (fun b => b <> []) bins) /\ ForallOrdPairs big bins /\ Forall (fun b => total_rate b <= 1 /\ rates_ok b) bins.

Lemma FOP_app : forall A (R : A -> A -> Prop) l x, ForallOrdPairs R l -> Forall (fun y => R y x) l -> ForallOrdPairs R (l ++ [x]).
Proof.
  intros A R l x H. induction H as [|a l H1 H2 IH]; intros H3; cbn [app]; [constructor; constructor|].
  inversion H3; subst. constructor; [apply Forall_app; split; [assumption|constructor; [assumption|constructor]]|]. apply IH. assumption.
Qed.
Lemma FOP_replace : forall A (R : A -> A -> Prop) pre x x' post, (forall y, R y x -> R y x') -> (forall y, R x y -> R x' y) ->
  ForallOrdPairs R (pre ++ x :: post) -> ForallOrdPairs R (pre ++ x' :: post).
Proof.
  intros A R pre x x' post H1 H2. induction pre as [|a pre IH]; cbn [app]; intros H; inversion H as [|a' l F G]; subst; constructor.
  - eapply Forall_impl; [|exact F]. exact H2.
  - assumption.
  - apply Forall_app in F. destruct F as [F1 F2]. inversion F2; subst. apply Forall_app. split; [assumption|]. constructor; [apply H1; assumption|assumption].
  - apply IH. assumption.
Qed.
Lemma Forall_mid : forall A (P : A -> Prop) pre x post, Forall P (pre ++ x :: post) <-> Forall P pre /\ P x /\ Forall P post.
Proof. intros. rewrite Forall_app, Forall_cons_iff. reflexivity. Qed.

Lemma grow_pinv : forall items bins out, grow rate (best_rule 1) items bins out -> rates_ok items -> pinv bins -> pinv out.
Proof.
  intros items bins out H. induction H as [bins|x items pre bin post bins' Hr H IH|x items bins bins' Hr H IH]; intros Hi [I1 [I2 I3]]; [repeat split; assumption| |].
  - inversion Hi as [|y l Hx Hl]; subst. apply IH; [assumption|]. destruct Hr as [[l [Hl1 Hl2]] _]. rewrite map_app in Hl1. cbn [map] in Hl1.
    rewrite nth_error_app2 in Hl1 by (rewrite map_length; lia). rewrite map_length, Nat.sub_diag in Hl1. cbn in Hl1. injection Hl1 as <-. rewrite load_total in Hl2.
    assert (T : total_rate (bin ++ [x]) == total_rate bin + rate x) by (rewrite total_app, total_cons; unfold total_rate; cbn; ring).
    apply Forall_mid in I3. destruct I3 as [J1 [[J2 J2'] J3]]. split; [|split].
    + right. destruct I1 as [I1|I1].
      * destruct pre as [|p [|q pre]]; cbn in I1; try discriminate. injection I1 as -> ->. constructor; [discriminate|constructor].
      * apply Forall_mid in I1. destruct I1 as [K1 [K2 K3]]. apply Forall_mid. split; [assumption|]. split; [|assumption]. intros C. apply app_eq_nil in C. destruct C. discriminate.
    + apply (FOP_replace _ _ pre bin (bin ++ [x]) post); [| |assumption]; intros y; unfold big; rewrite T; destruct Hx; lra.
    + apply Forall_mid. split; [assumption|]. split; [|assumption]. split; [rewrite T; lra|]. apply Forall_app. split; [assumption|]. constructor; [assumption|constructor].
  - inversion Hi as [|y l Hx Hl]; subst. apply IH; [assumption|]. cbn in Hr.
    assert (M : Forall (fun b => 1 < total_rate b + rate x) bins).
    { apply Forall_forall. intros b Hb. apply In_nth_error in Hb. destruct Hb as [i Hi']. destruct (Qlt_le_dec 1 (total_rate b + rate x)) as [L|L]; [assumption|].
      exfalso. apply (Hr i). exists (load rate b). split; [rewrite nth_error_map, Hi'; reflexivity|]. rewrite load_total. assumption. }
    assert (T : total_rate [x] == rate x) by (rewrite total_cons; unfold total_rate; cbn; ring).
    split; [|split].
    + right. destruct I1 as [->|I1].
      * exfalso. inversion M as [|b l' M1 _]; subst. unfold total_rate in M1. cbn in M1. destruct Hx. lra.
      * apply Forall_app. split; [assumption|]. constructor; [discriminate|constructor].
    + apply FOP_app; [assumption|]. eapply Forall_impl; [|exact M]. intros b Hb. unfold big. rewrite T. assumption.
    + apply Forall_app. split; [assumption|]. constructor; [|constructor]. split; [rewrite T; apply Hx|]. constructor; [assumption|constructor].
Qed.

Lemma grow_perm_bins : forall items bins out, grow rate (best_rule 1) items bins out -> Permutation (concat out) (concat bins ++ items).
Proof.
  intros items bins out H. induction H as [bins|x items pre bin post bins' Hr H IH|x items bins bins' Hr H IH].
  - rewrite app_nil_r. apply Permutation_refl.
  - eapply Permutation_trans; [exact IH|]. rewrite !concat_app. cbn [concat]. rewrite <- !app_assoc. apply Permutation_app_head. apply Permutation_app_head. cbn [app].
    apply (Permutation_middle (concat post) items x).
  - eapply Permutation_trans; [exact IH|]. rewrite concat_app. cbn [concat]. rewrite <- app_assoc. apply Permutation_refl.
Qed.

Lemma find_packing_spec : forall l, rates_ok l -> Permutation (concat (find_packing l)) l /\ pinv (find_packing l).
Proof.
  intros l Hl. unfold find_packing, decreasing.
  destruct (grow_run (A := server) rate 1 (sort_key_desc rate l) [[]] [0]) as [out [E G]]; [constructor; [reflexivity|constructor]|].
  change (best_fit rate 1 (fun _ => false) (sort_key_desc rate l) 0) with (best_fit_grow rate 1 (sort_key_desc rate l) [[]] [0]). rewrite E.
  assert (P : Permutation (sort_key_desc rate l) l) by apply sort_key_perm. split.
  - eapply Permutation_trans; [apply grow_perm_bins; exact G|]. cbn [concat app]. assumption.
  - eapply grow_pinv; [exact G| |].
    + unfold rates_ok. apply Forall_forall. intros s Hs. unfold rates_ok in Hl. rewrite Forall_forall in Hl. apply Hl. eapply Permutation_in; eassumption.
    + split; [left; reflexivity|]. split; [constructor; [constructor|constructor]|]. constructor; [|constructor]. split; [unfold total_rate; cbn; lra|constructor].
Qed.

(** ** One reduction step *)
Lemma total_concat : forall gs, total_rate (map aggregate gs) == total_rate (concat gs).
Proof. induction gs as [|g gs IH]; cbn [map concat]; [reflexivity|]. rewrite total_cons, total_app, IH. reflexivity. Qed.
Lemma total_dual : forall l, total_rate (map dual l) == inject_Z (Z.of_nat (length l)) - total_rate l.
Proof.
  induction l as [|s l IH]; cbn [map length]; [reflexivity|]. rewrite !total_cons, IH. rewrite Nat2Z.inj_succ. unfold Z.succ. rewrite inject_Z_plus. cbn [dual rate]. change (inject_Z 1) with 1. ring.
Qed.

Definition packed_of (l : list server) : list server := pack (find_packing l).

Lemma packed_total : forall l, rates_ok l -> total_rate (packed_of l) == total_rate l.
Proof. intros l H. unfold packed_of, pack. rewrite total_concat. apply total_perm. apply find_packing_spec. assumption. Qed.
Lemma packed_rates : forall l, rates_ok l -> rates_ok (packed_of l).
Proof.
  intros l H. destruct (find_packing_spec l H) as [_ [_ [_ P]]]. unfold packed_of, pack, rates_ok. apply Forall_map. eapply Forall_impl; [|exact P].
  intros g [G1 G2]. cbn [aggregate rate]. split; [apply total_nonneg; assumption|assumption].
Qed.
Lemma dual_rates : forall l, rates_ok l -> rates_ok (map dual l).
Proof. intros l H. unfold rates_ok. apply Forall_map. eapply Forall_impl; [|exact H]. intros s [S1 S2]. cbn [dual rate]. lra. Qed.

Definition bigs (a b : server) : Prop := 1 < rate a + rate b.
Definition smalls (a b : server) : Prop := rate a + rate b < 1.
Lemma FOP_map : forall A B (f : A -> B) (R : A -> A -> Prop) (S : B -> B -> Prop) l, (forall a b, R a b -> S (f a) (f b)) -> ForallOrdPairs R l -> ForallOrdPairs S (map f l).
Proof.
  intros A B f R S l H HR. induction HR as [|a l H1 _ IH]; cbn [map]; constructor; [|assumption]. apply Forall_map. eapply Forall_impl; [|exact H1]. intros b. apply H.
Qed.
Lemma packed_big : forall l, rates_ok l -> ForallOrdPairs bigs (packed_of l).
Proof. intros l H. destruct (find_packing_spec l H) as [_ [_ [P _]]]. eapply FOP_map; [|exact P]. intros g h G. exact G. Qed.
Lemma dual_small : forall l, ForallOrdPairs bigs l -> ForallOrdPairs smalls (map dual l).
Proof. intros l. apply FOP_map. intros a b. unfold bigs, smalls. cbn [dual rate]. lra. Qed.
Lemma FOP_perm : forall A (R : A -> A -> Prop) l l', (forall a b, R a b -> R b a) -> Permutation l l' -> ForallOrdPairs R l -> ForallOrdPairs R l'.
Proof.
  intros A R l l' Hs P. induction P as [|x l l' P IH|x y l|l l' l'' P1 IH1 P2 IH2]; intros H; [assumption| | |auto].
  - inversion H as [|a k F G]; subst. constructor; [|apply IH; assumption]. apply Forall_forall. intros z Hz. rewrite Forall_forall in F. apply F.
    eapply Permutation_in; [apply Permutation_sym; exact P|assumption].
  - inversion H as [|a k F G]; subst. inversion G as [|a' k' F' G']; subst. inversion F as [|b m F1 F2]; subst. constructor; [constructor; [apply Hs; assumption|assumption]|].
    constructor; assumption.
Qed.

(** pairs of packed servers exceed one, so the total exceeds half the number *)
Lemma big_total : forall n l, (length l <= n)%nat -> ForallOrdPairs bigs l -> (2 <= length l)%nat -> inject_Z (Z.of_nat (length l)) < 2 * total_rate l.
Proof.
  induction n as [n IH] using lt_wf_ind. intros l Hn H L. destruct l as [|x [|y [|z [|w l]]]]; cbn [length] in L, Hn; try lia.
  - inversion H as [|? ? F G]; subst. inversion F as [|? ? F1 F2]; subst. unfold bigs in F1. rewrite !total_cons. unfold total_rate.
    cbn [map qsum fold_right length]. change (inject_Z (Z.of_nat 2)) with 2. lra.
  - inversion H as [|? ? F G]; subst. inversion F as [|? ? F1 F2]; subst. inversion F2 as [|? ? F3 _]; subst. inversion G as [|? ? F' G']; subst.
    inversion F' as [|? ? F4 _]; subst. unfold bigs in *. rewrite !total_cons. unfold total_rate.
    cbn [map qsum fold_right length]. change (inject_Z (Z.of_nat 3)) with 3. lra.
  - inversion H as [|? ? F G]; subst. inversion F as [|? ? F1 F2]; subst. inversion G as [|? ? F' G']; subst. unfold bigs in F1.
    assert (K : inject_Z (Z.of_nat (length (z :: w :: l))) < 2 * total_rate (z :: w :: l)).
    { apply (IH (length (z :: w :: l))); [cbn [length]; lia|lia|assumption|cbn [length]; lia]. }
    rewrite (total_cons x), (total_cons y). cbn [length] in *. rewrite (Nat2Z.inj_succ (S (S (S _)))), (Nat2Z.inj_succ (S (S _))).
    unfold Z.succ. rewrite !inject_Z_plus. change (inject_Z 1) with 1. lra.
Qed.

(** the next packing has at most half as many servers, rounded up *)
Lemma half_groups : forall gs, Forall (fun g => g <> []) gs -> ForallOrdPairs big gs -> ForallOrdPairs smalls (concat gs) ->
  (2 * length gs <= length (concat gs) + 1)%nat.
Proof.
  intros gs H. induction H as [|g gs Hg H IH]; intros B S; [cbn; lia|]. inversion B as [|? ? B1 B2]; subst. cbn [concat] in *. rewrite app_length. cbn [length].
  assert (S2 : ForallOrdPairs smalls (concat gs)).
  { clear - S. induction g as [|a g IH]; [assumption|]. cbn [app] in S. inversion S; subst. apply IH. assumption. }
  destruct g as [|x [|y g]]; [contradiction| |specialize (IH B2 S2); cbn [length]; lia].
  cbn [app] in S. inversion S as [|? ? S1 _]; subst.
  assert (G : forall l, Forall (fun g => g <> []) l -> Forall (big [x]) l -> Forall (smalls x) (concat l) -> (2 * length l <= length (concat l))%nat).
  { clear. intros l H. induction H as [|g l Hg _ IH]; intros B S; [cbn; lia|]. inversion B as [|? ? B1 B2]; subst. cbn [concat] in S. apply Forall_app in S. destruct S as [S1 S2].
    specialize (IH B2 S2). cbn [concat length]. rewrite app_length. destruct g as [|a [|b g]]; [contradiction| |cbn [length]; lia].
    exfalso. inversion S1 as [|? ? S3 _]; subst. unfold big, smalls in *. rewrite !total_cons in B1. unfold total_rate in B1. cbn in B1. lra. }
  specialize (G gs H B1 S1). cbn [length]. lia.
Qed.

(** ** Integrality *)
Lemma inj_lt : forall a b, inject_Z a < inject_Z b -> (a < b)%Z.
Proof. intros a b H. rewrite <- Zlt_Qlt in H. assumption. Qed.
Lemma inj_le : forall a b, inject_Z a <= inject_Z b -> (a <= b)%Z.
Proof. intros a b H. rewrite <- Zle_Qle in H. assumption. Qed.

Lemma ensure_total : forall l, total_rate (ensure_integer_rate l) == inject_Z (Qceiling (total_rate l)).
Proof.
  intros l. unfold ensure_integer_rate. destruct (Qeq_bool (inject_Z (Qceiling (total_rate l))) (total_rate l)) eqn:E; cbn [negb].
  - apply Qeq_bool_iff in E. symmetry. assumption.
  - rewrite total_app, total_cons. change (total_rate []) with 0. cbn [rate]. ring.
Qed.
Lemma ensure_rates : forall l, rates_ok l -> rates_ok (ensure_integer_rate l).
Proof.
  intros l H. unfold ensure_integer_rate. destruct (Qeq_bool (inject_Z (Qceiling (total_rate l))) (total_rate l)) eqn:E; cbn [negb]; [assumption|].
  apply Forall_app. split; [assumption|]. constructor; [|constructor]. cbn [rate]. pose proof (Qle_ceiling (total_rate l)) as A. pose proof (Qceiling_lt (total_rate l)) as B.
  unfold Z.sub in B. rewrite inject_Z_plus in B. change (inject_Z (- (1))) with (-(1)) in B. lra.
Qed.

Lemma all_units_total : forall l, rates_ok l -> total_rate l == inject_Z (Z.of_nat (length l)) -> all_unit_servers l = true.
Proof.
  intros l H. induction H as [|s l [S1 S2] H IH]; intros T; [reflexivity|]. rewrite total_cons in T. cbn [length] in T. rewrite Nat2Z.inj_succ in T. unfold Z.succ in T.
  rewrite inject_Z_plus in T. change (inject_Z 1) with 1 in T.
  assert (L : total_rate l <= inject_Z (Z.of_nat (length l))).
  { clear - H. induction H as [|s l [S1 S2] _ IH]; [apply Qle_refl|]. rewrite total_cons. cbn [length]. rewrite Nat2Z.inj_succ. unfold Z.succ. rewrite inject_Z_plus. change (inject_Z 1) with 1. lra. }
  cbn [all_unit_servers forallb]. apply andb_true_intro. split; [apply Qeq_bool_iff; lra|]. apply IH. lra.
Qed.
Lemma all_units_iff : forall l, all_unit_servers l = true -> Forall (fun s => rate s == 1) l.
Proof. intros l H. unfold all_unit_servers in H. rewrite forallb_forall in H. apply Forall_forall. intros s Hs. apply Qeq_bool_iff. apply H. assumption. Qed.

(** one or two packed servers with a positive integral total are unit servers *)
Lemma few_units : forall l, rates_ok l -> ForallOrdPairs bigs l -> (exists z, total_rate l == inject_Z z) -> 0 < total_rate l -> (length l <= 2)%nat -> all_unit_servers l = true.
Proof.
  intros l H B [z Z] Hp L. apply all_units_total; [assumption|]. destruct l as [|x [|y [|w l]]]; cbn [length] in L; [| | |lia].
  - unfold total_rate in Hp. cbn in Hp. lra.
  - inversion H as [|? ? [X1 X2] _]; subst. rewrite total_cons in *. unfold total_rate in *. cbn [map qsum fold_right] in *. rewrite Z in Hp. change 0 with (inject_Z 0) in Hp. apply inj_lt in Hp.
    assert (Y : inject_Z z <= inject_Z 1) by (change (inject_Z 1) with 1; lra). apply inj_le in Y. assert (z = 1%Z) by lia. subst z. cbn [length]. exact Z.
  - inversion H as [|? ? [X1 X2] H1]; subst. inversion H1 as [|? ? [Y1 Y2] _]; subst. inversion B as [|? ? B1 _]; subst. inversion B1 as [|? ? B2 _]; subst. unfold bigs in B2.
    rewrite !total_cons in *. unfold total_rate in *. cbn [map qsum fold_right] in *.
    assert (Y : inject_Z 1 < inject_Z z) by (change (inject_Z 1) with 1; lra). apply inj_lt in Y.
    assert (Y' : inject_Z z <= inject_Z 2) by (change (inject_Z 2) with 2; lra). apply inj_le in Y'. assert (z = 2%Z) by lia. subst z. cbn [length]. exact Z.
Qed.

(** ** The loop *)
Definition level_ok (l : list server) : Prop := rates_ok l /\ integral (total_rate l) /\ 0 < total_rate l.

Lemma packed_length_pos : forall l, rates_ok l -> 0 < total_rate l -> Forall (fun g => g <> []) (find_packing l).
Proof.
  intros l H Hp. destruct (find_packing_spec l H) as [P [[E|E] _]]; [|assumption]. rewrite E in P. cbn in P. apply Permutation_nil in P. subst l. unfold total_rate in Hp. cbn in Hp. lra.
Qed.
Lemma units_length : forall l, rates_ok l -> total_rate l <= inject_Z (Z.of_nat (length l)).
Proof.
  intros l H. induction H as [|s l [S1 S2] _ IH]; [apply Qle_refl|]. rewrite total_cons. cbn [length]. rewrite Nat2Z.inj_succ. unfold Z.succ. rewrite inject_Z_plus. change (inject_Z 1) with 1. lra.
Qed.

Lemma step_ok : forall l, level_ok l -> all_unit_servers (packed_of l) = false ->
  level_ok (map dual (packed_of l)) /\ total_rate (map dual (packed_of l)) <= total_rate l - 1 /\ (3 <= length (packed_of l))%nat.
Proof.
  intros l [R [[z Z] Hp]] U. pose proof (packed_rates l R) as PR. pose proof (packed_total l R) as PT. pose proof (packed_big l R) as PB.
  assert (K : (3 <= length (packed_of l))%nat).
  { destruct (le_lt_dec (length (packed_of l)) 2) as [L|L]; [|lia]. rewrite few_units in U; [discriminate|assumption|assumption|exists z; rewrite PT; assumption|rewrite PT; assumption|assumption]. }
  assert (B : inject_Z (Z.of_nat (length (packed_of l))) < 2 * total_rate (packed_of l)) by (apply (big_total (length (packed_of l))); [lia|assumption|lia]).
  pose proof (units_length _ PR) as UL.
  assert (UL' : ~ total_rate (packed_of l) == inject_Z (Z.of_nat (length (packed_of l)))) by (intros E; rewrite all_units_total in U; [discriminate|assumption|assumption]).
  rewrite PT, Z in B, UL, UL'. set (k := Z.of_nat (length (packed_of l))) in *.
  assert (B' : inject_Z k < inject_Z (2 * z)) by (rewrite inject_Z_mult; exact B). apply inj_lt in B'. apply inj_le in UL.
  assert (N : k <> z) by (intros E; apply UL'; rewrite E; reflexivity).
  assert (T : total_rate (map dual (packed_of l)) == inject_Z (k - z)) by (rewrite total_dual, PT, Z; unfold k, Z.sub; rewrite inject_Z_plus, inject_Z_opp; reflexivity).
  split; [split; [|split]|split].
  - apply dual_rates. assumption.
  - exists (k - z)%Z. assumption.
  - rewrite T. change 0 with (inject_Z 0). rewrite <- Zlt_Qlt. lia.
  - rewrite T, Z. change 1 with (inject_Z 1). rewrite <- inject_Z_opp, <- inject_Z_plus || unfold Qminus; rewrite <- inject_Z_opp, <- inject_Z_plus, <- Zle_Qle. lia.
  - assumption.
Qed.

Lemma step_half : forall l, level_ok l -> ForallOrdPairs smalls l -> (2 * length (packed_of l) <= length l + 1)%nat.
Proof.
  intros l [R [_ Hp]] S. destruct (find_packing_spec l R) as [P [_ [P2 _]]]. unfold packed_of, pack. rewrite map_length, <- (Permutation_length P).
  apply half_groups; [apply packed_length_pos; assumption|assumption|]. eapply FOP_perm; [|apply Permutation_sym; exact P|exact S]. intros a b. unfold smalls. lra.
Qed.

Lemma serves_aggregate : forall g, g <> [] -> serves (aggregate g) g.
Proof.
  intros g Hg. split; [assumption|]. split; [reflexivity|]. split; [reflexivity|]. intros t. cbn [aggregate deadlines]. rewrite in_concat. split.
  - intros [x [Hx Ht]]. apply in_map_iff in Hx. destruct Hx as [s [<- Hs]]. exists s. split; assumption.
  - intros [s [Hs Ht]]. exists (deadlines s). split; [apply in_map; assumption|assumption].
Qed.
Lemma packed_serves : forall gs, Forall (fun g => g <> []) gs -> Forall2 (fun g p => serves p g /\ created_from p = None) gs (map aggregate gs).
Proof. intros gs H. induction H as [|g gs Hg _ IH]; cbn [map]; constructor; [|assumption]. split; [apply serves_aggregate; assumption|reflexivity]. Qed.
Lemma duals_serve : forall gs, Forall (fun g => g <> []) gs -> Forall2 (fun g d => exists p, created_from d = Some p /\ created_from p = None /\ serves p g /\ rate d == 1 - rate p /\ deadlines d = deadlines p) gs (map dual (map aggregate gs)).
Proof.
  intros gs H. induction H as [|g gs Hg _ IH]; cbn [map]; constructor; [|assumption]. exists (aggregate g). split; [reflexivity|]. split; [reflexivity|]. split; [apply serves_aggregate; assumption|]. split; reflexivity.
Qed.

(** what a terminated loop has added *)
Record finished (l : list server) (ls : list (list server)) (packed : list server) : Prop := {
  fin_head : exists r, ls = l :: r;
  fin_red : reduction ls packed;
  fin_ok : Forall level_ok ls;
  fin_dec : decreasing_totals ls;
  fin_pos : packed <> [] }.

Lemma packed_nonempty : forall l, level_ok l -> packed_of l <> [].
Proof.
  intros l [R [_ Hp]] E. pose proof (packed_total l R) as T. rewrite E in T. unfold total_rate in T at 1. cbn in T. lra.
Qed.
Lemma last_reduction : forall l, level_ok l -> all_unit_servers (packed_of l) = true -> reduction [l] (packed_of l).
Proof.
  intros l [R [_ Hp]] U. destruct (find_packing_spec l R) as [P _]. apply (reduction_last l (find_packing l)); [|assumption].
  apply all_units_iff in U. unfold packed_of, pack in *. pose proof (packed_serves (find_packing l) (packed_length_pos l R Hp)) as S. revert U S. generalize (find_packing l). clear.
  intros gs U S. induction S as [|g p gs ps [H1 H2] _ IH]; [constructor|]. inversion U; subst. constructor; [|apply IH; assumption]. auto.
Qed.

Lemma loop_run : forall j fuel pre l, level_ok l -> (length (packed_of l) <= 2 ^ S j)%nat -> (S j <= fuel)%nat ->
  exists packed ls, reduce_loop fuel (pre ++ [l]) l = Some (packed, pre ++ ls) /\ finished l ls packed /\ (length ls <= S j)%nat.
Proof.
  induction j as [|j IH]; intros fuel pre l Hl Hk Hf; (destruct fuel as [|f]; [lia|]); cbn [reduce_loop]; change (pack (find_packing l)) with (packed_of l).
  - destruct Hl as [R [Z Hp]].
    assert (U : all_unit_servers (packed_of l) = true).
    { apply few_units; [apply packed_rates; assumption|apply packed_big; assumption| | |exact Hk].
      - destruct Z as [z Z]. exists z. rewrite packed_total by assumption. assumption.
      - rewrite packed_total by assumption. assumption. }
    rewrite U. exists (packed_of l), [l]. split; [reflexivity|]. split; [|cbn [length]; lia].
    assert (Hl : level_ok l) by (split; [|split]; assumption).
    split; [exists []; reflexivity|apply last_reduction; assumption|constructor; [assumption|constructor]|exact I|apply packed_nonempty; assumption].
  - destruct (all_unit_servers (packed_of l)) eqn:U.
    + exists (packed_of l), [l]. split; [reflexivity|]. split; [|cbn [length]; lia].
      split; [exists []; reflexivity|apply last_reduction; assumption|constructor; [assumption|constructor]|exact I|apply packed_nonempty; assumption].
    + destruct (step_ok l Hl U) as [Hd [Ht H3]].
      destruct (IH f (pre ++ [l]) (map dual (packed_of l)) Hd) as [packed [ls [E [F L]]]]; [|lia|].
      { assert (S : ForallOrdPairs smalls (map dual (packed_of l))) by (apply dual_small, packed_big; apply Hl).
        pose proof (step_half _ Hd S) as Hh. rewrite map_length in Hh. change (2 ^ Datatypes.S (Datatypes.S j))%nat with (2 * 2 ^ Datatypes.S j)%nat in Hk. lia. }
      exists packed, (l :: ls). split; [rewrite E, <- app_assoc; reflexivity|]. split; [|cbn [length]; lia].
      destruct F as [[r Fh] Fr Fo Fd Fp]. subst ls. split; [exists (map dual (packed_of l) :: r); reflexivity| | |split; assumption|assumption].
      * apply (reduction_next l _ r packed (find_packing l)); [apply duals_serve; apply packed_length_pos; apply Hl|apply find_packing_spec; apply Hl|assumption].
      * constructor; assumption.
Qed.

(** ** Counting executing servers *)
Fixpoint leafrate (s : server) : Q :=
  match s with
  | Server r _ cl o =>
    match o with
    | Some p => leafrate p
    | None => match cl with [] => r | _ => qsum (map leafrate cl) end
    end
  end.

Inductive tree : Q -> server -> Prop :=
| tree_leaf : forall r d, tree 1 (Server r d [] None)
| tree_packed : forall r d cl sg, cl <> [] -> Forall (tree sg) cl -> r == total_rate cl -> tree sg (Server r d cl None)
| tree_dual : forall r d cl p sg sg', tree sg p -> r == 1 - rate p -> sg' == - sg -> tree sg' (Server r d cl (Some p)).

Scheme exec_mut := Minimality for exec Sort Prop with execs_mut := Minimality for execs Sort Prop.

Lemma exec_count : forall s b c, exec s b c -> forall sg, tree sg s -> c - leafrate s == sg * (indicator b - rate s).
Proof.
  apply (exec_mut (fun s b c => forall sg, tree sg s -> c - leafrate s == sg * (indicator b - rate s))
    (fun l bs cs => forall sg, Forall (tree sg) l -> qsum cs - qsum (map leafrate l) == sg * (qsum (map indicator bs) - total_rate l))).
  - intros r d b sg T. inversion T as [| |]; subst; [|contradiction]. cbn [leafrate rate]. ring.
  - intros r d cl p b c E IH sg T. inversion T as [| |? ? ? ? sg0 ? T0 Hr Hs]; subst. specialize (IH sg0 T0). cbn [leafrate rate]. rewrite IH, Hs, Hr. destruct b; cbn [negb indicator]; ring.
  - intros r d cl b bs cs Hne Hb E IH sg T. inversion T as [|? ? ? ? Hne' F Hr|]; subst; [contradiction|]. specialize (IH sg F). destruct cl as [|s cl]; [contradiction|]. change (leafrate (Server r d (s :: cl) None)) with (qsum (map leafrate (s :: cl))). cbn [rate]. rewrite Hr, <- Hb, <- IH. reflexivity.
  - intros sg _. unfold total_rate. cbn. ring.
  - intros s b c l bs cs E IH1 Es IH2 sg F. inversion F as [|? ? F1 F2]; subst. specialize (IH1 sg F1). specialize (IH2 sg F2). cbn [map qsum fold_right]. rewrite total_cons.
    transitivity ((c - leafrate s) + (qsum cs - qsum (map leafrate l))); [unfold qsum; ring|]. rewrite IH1, IH2. unfold qsum. ring.
Qed.

Lemma execs_count : forall l bs cs, execs l bs cs -> forall sg, Forall (tree sg) l -> Forall (fun s => rate s == 1) l -> Forall (fun b => b = true) bs ->
  qsum cs == qsum (map leafrate l).
Proof.
  intros l bs cs H. induction H as [|s b c l bs cs E Es IH]; intros sg F U B; [reflexivity|]. inversion F; subst. inversion U; subst. inversion B; subst.
  cbn [map qsum fold_right]. pose proof (exec_count _ _ _ E sg ltac:(assumption)) as K. cbn [indicator] in K. unfold qsum in IH.
  assert (R1 : rate s == 1) by assumption. rewrite R1 in K. assert (K' : c == leafrate s) by (setoid_replace (1 - 1) with 0 in K by ring; rewrite Qmult_0_r in K; lra).
  rewrite K'. apply Qplus_comp; [reflexivity|]. apply (IH sg); assumption.
Qed.

Lemma qsum_map_perm : forall (f : server -> Q) l l', Permutation l l' -> qsum (map f l) == qsum (map f l').
Proof. intros f l l' H. unfold qsum. induction H; cbn [map fold_right]; try rewrite IHPermutation; try ring. rewrite IHPermutation1. assumption. Qed.
Lemma qsum_map_app : forall (f : server -> Q) l l', qsum (map f (l ++ l')) == qsum (map f l) + qsum (map f l').
Proof. intros f l l'. unfold qsum. induction l as [|a l IH]; cbn [map app fold_right]; [ring|]. rewrite IH. ring. Qed.

Lemma serves_leaf : forall p g sg, serves p g -> created_from p = None -> Forall (tree sg) g -> tree sg p /\ leafrate p == qsum (map leafrate g).
Proof.
  intros [r d cl o] g sg [Hg [S1 [S2 _]]] C F. cbn in C, S1, S2. subst o cl. split; [apply tree_packed; assumption|]. cbn [leafrate]. destruct g; [contradiction|reflexivity].
Qed.

Lemma concat_leaf : forall gs, qsum (map leafrate (concat gs)) == qsum (map (fun g => qsum (map leafrate g)) gs).
Proof. induction gs as [|g gs IH]; [reflexivity|]. cbn [concat map]. rewrite qsum_map_app, IH. reflexivity. Qed.

Lemma served_leaves : forall gs ps sg, Forall2 (fun g p => serves p g /\ created_from p = None) gs ps -> Forall (tree sg) (concat gs) ->
  Forall (tree sg) ps /\ qsum (map leafrate ps) == qsum (map leafrate (concat gs)).
Proof.
  intros gs ps sg H. induction H as [|g p gs ps [S C] _ IH]; intros F; [split; [constructor|reflexivity]|]. cbn [concat] in F. apply Forall_app in F. destruct F as [F1 F2].
  destruct (IH F2) as [I1 I2]. destruct (serves_leaf p g sg S C F1) as [T1 T2]. split; [constructor; assumption|]. cbn [concat map]. rewrite qsum_map_app. cbn [qsum fold_right]. 
  rewrite T2. unfold qsum in *. rewrite I2. reflexivity.
Qed.
Lemma complemented_leaves : forall gs ds sg, Forall2 (fun g d => exists p, created_from d = Some p /\ created_from p = None /\ serves p g /\ rate d == 1 - rate p /\ deadlines d = deadlines p) gs ds ->
  Forall (tree sg) (concat gs) ->
  Forall (tree (- sg)) ds /\ qsum (map leafrate ds) == qsum (map leafrate (concat gs)).
Proof.
  intros gs ds sg H. induction H as [|g d gs ds [p [C [O [S [R _]]]]] _ IH]; intros F; [split; [constructor|reflexivity]|]. cbn [concat] in F. apply Forall_app in F. destruct F as [F1 F2].
  destruct (IH F2) as [I1 I2]. destruct (serves_leaf p g sg S O F1) as [T1 T2].
  destruct d as [r dl cl o]. cbn in C, R. subst o. split; [constructor; [|assumption]|].
  - eapply tree_dual; [exact T1|exact R|reflexivity].
  - cbn [concat map]. rewrite qsum_map_app. cbn [qsum fold_right leafrate]. rewrite T2. unfold qsum in *. rewrite I2. reflexivity.
Qed.

Lemma Forall2_weaken : forall A B (P Q : A -> B -> Prop) l m, (forall a b, P a b -> Q a b) -> Forall2 P l m -> Forall2 Q l m.
Proof. intros A B P Q l m H F. induction F; constructor; auto. Qed.

Lemma reduction_leaves : forall ls packed, reduction ls packed -> forall l r sg, ls = l :: r -> Forall (tree sg) l ->
  (exists sg', Forall (tree sg') packed) /\ Forall (fun s => rate s == 1) packed /\ qsum (map leafrate packed) == qsum (map leafrate l).
Proof.
  intros ls packed H. induction H as [l groups packed F P|l l' ls packed groups F P H IH]; intros l0 r sg E T; injection E as -> _.
  - assert (T' : Forall (tree sg) (concat groups)) by (eapply Permutation_Forall; [apply Permutation_sym; exact P|exact T]).
    destruct (served_leaves groups packed sg) as [S1 S2]; [eapply Forall2_weaken; [|exact F]; cbn; tauto|assumption|].
    split; [exists sg; assumption|]. split; [|rewrite S2; apply qsum_map_perm; assumption].
    clear - F. induction F as [|g p gs ps [_ [_ H]] _ IH]; constructor; assumption.
  - assert (T' : Forall (tree sg) (concat groups)) by (eapply Permutation_Forall; [apply Permutation_sym; exact P|exact T]).
    destruct (complemented_leaves groups l' sg F T') as [S1 S2]. destruct (IH l' ls (- sg) eq_refl S1) as [I1 [I2 I3]].
    split; [assumption|]. split; [assumption|]. rewrite I3, S2. apply qsum_map_perm; assumption.
Qed.

Lemma original_leaves : forall l, Forall original l -> Forall (tree 1) l /\ qsum (map leafrate l) == total_rate l.
Proof.
  intros l H. induction H as [|[r d cl o] l [H1 [H2 _]] _ [IH1 IH2]]; [split; [constructor|reflexivity]|]. cbn in H1, H2. subst. split; [constructor; [constructor|assumption]|].
  unfold total_rate in *. cbn [map qsum fold_right leafrate rate]. unfold qsum in IH2. rewrite IH2. reflexivity.
Qed.

Lemma ensure_original : forall l, Forall original l -> Forall original (ensure_integer_rate l).
Proof.
  intros l H. assert (R : rates_ok l) by (eapply Forall_impl; [|exact H]; intros s [_ [_ K]]; exact K). apply ensure_rates in R. unfold ensure_integer_rate in *.
  destruct (Qeq_bool (inject_Z (Qceiling (total_rate l))) (total_rate l)) eqn:E; cbn [negb] in *; [assumption|]. apply Forall_app. split; [assumption|].
  constructor; [|constructor]. apply Forall_app in R. destruct R as [_ R]. inversion R; subst. split; [reflexivity|]. split; [reflexivity|assumption].
Qed.

Lemma reduction_count : forall l r packed, reduction (l :: r) packed -> Forall original l ->
  forall cs, execs packed (repeat true (length packed)) cs -> qsum cs == total_rate l.
Proof.
  intros l r packed H O cs E. destruct (original_leaves l O) as [T L]. destruct (reduction_leaves _ _ H l r 1 eq_refl T) as [[sg T'] [U S]].
  rewrite (execs_count _ _ _ E sg T' U), S, L; [reflexivity|]. clear. induction packed; cbn [length repeat]; constructor; auto.
Qed.

(** ** The whole reduction *)
Lemma original_rates : forall l, Forall original l -> rates_ok l.
Proof. intros l H. eapply Forall_impl; [|exact H]. intros s [_ [_ K]]. exact K. Qed.

Lemma ensure_pos : forall l, 0 < total_rate l -> (1 <= Qceiling (total_rate l))%Z.
Proof.
  intros l H. pose proof (Qle_ceiling (total_rate l)) as C. assert (K : inject_Z 0 < inject_Z (Qceiling (total_rate l))) by (change (inject_Z 0) with 0; lra). apply inj_lt in K. lia.
Qed.

Lemma reduce_run : forall servers fuel j, Forall original servers -> 0 < total_rate servers -> 
  (length (packed_of (ensure_integer_rate servers)) <= 2 ^ S j)%nat -> (S j <= fuel)%nat ->
  exists packed rest, reduce fuel servers = Some (packed, ensure_integer_rate servers :: rest) /\
    reduction (ensure_integer_rate servers :: rest) packed /\ Forall level_ok (ensure_integer_rate servers :: rest) /\
    decreasing_totals (ensure_integer_rate servers :: rest) /\ packed <> [] /\ (length rest <= j)%nat.
Proof.
  intros servers fuel j O Hp Hk Hf. set (l0 := ensure_integer_rate servers) in *. pose proof (ensure_total servers) as T. fold l0 in T. pose proof (ensure_pos servers Hp) as C.
  assert (L : level_ok l0).
  { split; [apply ensure_rates, original_rates; assumption|]. split; [exists (Qceiling (total_rate servers)); assumption|]. rewrite T. change 0 with (inject_Z 0). rewrite <- Zlt_Qlt. lia. }
  destruct (loop_run j fuel [] l0 L Hk Hf) as [packed [ls [E [[[r F1] F2 F3 F4 F5] Len]]]]. subst ls. exists packed, r. cbn [app] in E. unfold reduce. fold l0. cbn [length] in Len. repeat split; try assumption. lia.
Qed.

Lemma packed_count : forall l, level_ok l -> inject_Z (Z.of_nat (length (packed_of l))) < 2 * total_rate l /\ (length (packed_of l) <= length l)%nat.
Proof.
  intros l [R [[z Z] Hp]]. split.
  - rewrite <- (packed_total l R) in *. destruct (packed_of l) as [|x [|y p]] eqn:E.
    + unfold total_rate in Hp. cbn in Hp. lra.
    + rewrite Z in *. cbn [length]. change 0 with (inject_Z 0) in Hp. apply inj_lt in Hp. change 2 with (inject_Z 2). rewrite <- inject_Z_mult. rewrite <- Zlt_Qlt. lia.
    + rewrite <- E. apply (big_total (length (packed_of l))); [lia|apply packed_big; assumption|rewrite E; cbn [length]; lia].
  - destruct (find_packing_spec l R) as [P _]. unfold packed_of, pack. rewrite map_length, <- (Permutation_length P). pose proof (packed_length_pos l R Hp) as N. clear - N.
    induction N as [|g gs Hg _ IH]; [cbn; lia|]. cbn [concat length]. rewrite app_length. destruct g; [contradiction|]. cbn [length]. lia.
Qed.

Lemma loop_more : forall f levels l r, reduce_loop f levels l = Some r -> forall f', (f <= f')%nat -> reduce_loop f' levels l = Some r.
Proof.
  induction f as [|f IH]; intros levels l r E f' Hf; [discriminate|]. destruct f' as [|f']; [lia|]. cbn [reduce_loop] in *.
  destruct (all_unit_servers (pack (find_packing l))); [assumption|]. apply IH; [assumption|lia].
Qed.
Lemma reduce_det : forall f f' servers r r', reduce f servers = Some r -> reduce f' servers = Some r' -> r = r'.
Proof.
  intros f f' servers r r' E E'. unfold reduce in *. destruct (le_lt_dec f f') as [L|L].
  - rewrite (loop_more _ _ _ _ E f' L) in E'. injection E' as <-. reflexivity.
  - rewrite (loop_more _ _ _ _ E' f) in E by lia. injection E as <-. reflexivity.
Qed.

Lemma ensure_level : forall servers, Forall original servers -> 0 < total_rate servers -> level_ok (ensure_integer_rate servers).
Proof.
  intros servers O Hp. split; [apply ensure_rates, original_rates; assumption|]. pose proof (ensure_total servers) as T. pose proof (ensure_pos servers Hp) as C.
  split; [exists (Qceiling (total_rate servers)); assumption|]. rewrite T. change 0 with (inject_Z 0). rewrite <- Zlt_Qlt. lia.
Qed.
Lemma ensure_length : forall servers, (length (ensure_integer_rate servers) <= S (length servers))%nat.
Proof. intros servers. unfold ensure_integer_rate. destruct (negb _); rewrite ?app_length; cbn [length]; lia. Qed.

Lemma log2_up_pow : forall n, (n <= 2 ^ Nat.log2_up n)%nat.
Proof. intros [|[|n]]; [cbn; lia|cbn; lia|]. apply Nat.log2_up_spec. lia. Qed.

Definition processors (servers : list server) : nat := Z.to_nat (Qceiling (total_rate servers)).

Lemma reduce_bound_m : forall servers, Forall original servers -> 0 < total_rate servers ->
  (length (packed_of (ensure_integer_rate servers)) <= 2 ^ S (Nat.log2_up (processors servers)))%nat.
Proof.
  intros servers O Hp. destruct (packed_count _ (ensure_level servers O Hp)) as [K _]. rewrite ensure_total in K. pose proof (ensure_pos servers Hp) as C.
  assert (K' : inject_Z (Z.of_nat (length (packed_of (ensure_integer_rate servers)))) < inject_Z (2 * Qceiling (total_rate servers))) by (rewrite inject_Z_mult; exact K).
  apply inj_lt in K'. pose proof (log2_up_pow (processors servers)) as L. unfold processors in *. rewrite Nat.pow_succ_r'. lia.
Qed.
Lemma reduce_bound_n : forall servers, Forall original servers -> 0 < total_rate servers ->
  (length (packed_of (ensure_integer_rate servers)) <= 2 ^ Nat.log2_up (S (length servers)))%nat.
Proof.
  intros servers O Hp. destruct (packed_count _ (ensure_level servers O Hp)) as [_ K]. pose proof (ensure_length servers). pose proof (log2_up_pow (S (length servers))). lia.
Qed.

Lemma reduce_terminates : forall servers, Forall original servers -> 0 < total_rate servers ->
  exists packed levels, (forall fuel, (S (Nat.log2_up (processors servers)) <= fuel)%nat -> reduce fuel servers = Some (packed, levels)) /\
    (length levels <= S (Nat.log2_up (processors servers)))%nat /\ (length levels <= Nat.log2_up (S (length servers)))%nat.
Proof.
  intros servers O Hp. destruct (reduce_run servers (S (Nat.log2_up (processors servers))) (Nat.log2_up (processors servers)) O Hp (reduce_bound_m servers O Hp)) as [packed [rest [E [_ [_ [_ [_ L]]]]]]]; [lia|].
  exists packed, (ensure_integer_rate servers :: rest). split; [|split].
  - intros fuel Hf. unfold reduce in *. eapply loop_more; eassumption.
  - cbn [length]. lia.
  - destruct (Nat.log2_up (S (length servers))) as [|j] eqn:J.
    + exfalso. destruct servers as [|s servers]; [unfold total_rate in Hp; cbn in Hp; lra|]. cbn [length] in J. assert (0 < Nat.log2_up (S (S (length servers))))%nat by (apply Nat.log2_up_pos; lia). lia.
    + destruct (reduce_run servers (S j) j O Hp) as [packed' [rest' [E' [_ [_ [_ [_ L']]]]]]]; [rewrite <- J; apply reduce_bound_n; assumption|lia|].
      pose proof (reduce_det _ _ _ _ _ E E') as D. injection D as _ D. cbn [length]. rewrite D. lia.
Qed.

Lemma reduce_valid : forall servers fuel packed levels, Forall original servers -> 0 < total_rate servers -> reduce fuel servers = Some (packed, levels) ->
  exists rest, levels = ensure_integer_rate servers :: rest /\ reduction levels packed /\ Forall level_ok levels /\ decreasing_totals levels /\ packed <> [].
Proof.
  intros servers fuel packed levels O Hp E.
  destruct (reduce_run servers (S (Nat.log2_up (processors servers))) (Nat.log2_up (processors servers)) O Hp (reduce_bound_m servers O Hp)) as [packed' [rest [E' [R1 [R2 [R3 [R4 L]]]]]]]; [lia|].
  pose proof (reduce_det _ _ _ _ _ E E') as D. injection D as -> ->. exists rest. auto.
Qed.

(** slack *)
Lemma ensure_spec : forall servers, exists slack, ensure_integer_rate servers = servers ++ slack /\
  (slack = [] /\ integral (total_rate servers) \/ exists s, slack = [s] /\ clients s = [] /\ created_from s = None /\ deadlines s = [] /\ 0 < rate s < 1).
Proof.
  intros servers. unfold ensure_integer_rate. destruct (Qeq_bool (inject_Z (Qceiling (total_rate servers))) (total_rate servers)) eqn:E; cbn [negb].
  - exists []. rewrite app_nil_r. split; [reflexivity|]. left. split; [reflexivity|]. exists (Qceiling (total_rate servers)). apply Qeq_bool_iff in E. symmetry. assumption.
  - eexists. split; [reflexivity|]. right. eexists. split; [reflexivity|]. repeat (split; [reflexivity|]). cbn [rate].
    pose proof (Qle_ceiling (total_rate servers)) as A. pose proof (Qceiling_lt (total_rate servers)) as B. unfold Z.sub in B. rewrite inject_Z_plus in B. change (inject_Z (- (1))) with (-(1)) in B.
    apply Qeq_bool_neq in E. lra.
Qed.

(** zero total rate *)
Lemma reduce_idle : forall servers, Forall original servers -> total_rate servers == 0 ->
  exists packed levels, (forall fuel, (2 <= fuel)%nat -> reduce fuel servers = Some (packed, levels)) /\ length levels = 2%nat.
Proof.
  intros servers O Hz. assert (E0 : ensure_integer_rate servers = servers).
  { unfold ensure_integer_rate. replace (Qeq_bool (inject_Z (Qceiling (total_rate servers))) (total_rate servers)) with true; [reflexivity|]. symmetry. apply Qeq_bool_iff. rewrite (Qceiling_comp _ _ Hz), Hz. reflexivity. }
  pose proof (original_rates servers O) as R. pose proof (packed_total servers R) as PT. pose proof (packed_rates servers R) as PR.
  assert (K : length (packed_of servers) = 1%nat).
  { destruct (packed_of servers) as [|x [|y p]] eqn:E; [|reflexivity|].
    - exfalso. unfold packed_of, pack in E. destruct (find_packing servers) eqn:G; [|discriminate]. destruct (find_packing_spec servers R) as [P [[Q|_] _]]; [congruence|]. rewrite G in P. cbn in P.
      apply Permutation_nil in P. subst servers. discriminate G.
    - exfalso. pose proof (packed_big servers R) as B. rewrite E in *. assert (inject_Z (Z.of_nat (length (x :: y :: p))) < 2 * total_rate (x :: y :: p)) by (apply (big_total (length (x :: y :: p))); [lia|assumption|cbn [length]; lia]).
      rewrite PT, Hz in H. assert (0 <= inject_Z (Z.of_nat (length (x :: y :: p)))) by (change 0 with (inject_Z 0); rewrite <- Zle_Qle; lia). lra. }
  assert (U : all_unit_servers (packed_of servers) = false).
  { destruct (packed_of servers) as [|x [|y p]]; try discriminate. rewrite total_cons in PT. change (total_rate []) with 0 in PT. cbn [all_unit_servers forallb]. rewrite andb_true_r. unfold is_unit.
    destruct (Qeq_bool (rate x) 1) eqn:E; [|reflexivity]. apply Qeq_bool_iff in E. lra. }
  assert (L : level_ok (map dual (packed_of servers))).
  { split; [apply dual_rates; assumption|]. assert (T : total_rate (map dual (packed_of servers)) == 1) by (rewrite total_dual, PT, K, Hz; reflexivity).
    split; [exists 1%Z; rewrite T; reflexivity|rewrite T; lra]. }
  destruct (loop_run 0 1 [servers] _ L) as [packed [ls [E [[[r F1] F2 F3 F4 F5] Len]]]]; [|lia|].
  - destruct (packed_count _ L) as [_ C]. rewrite map_length, K in C. change (2 ^ 1)%nat with 2%nat. lia.
  - exists packed, (servers :: ls). subst ls. split.
    + intros fuel Hf. unfold reduce. rewrite E0. destruct fuel as [|f]; [lia|]. cbn [reduce_loop]. change (pack (find_packing servers)) with (packed_of servers). rewrite U.
      eapply loop_more; [exact E|lia].
    + cbn [length] in *. lia.
Qed.

(** every server tree can be executed *)
Lemma server_nested : forall P : server -> Prop,
  (forall r d cl, Forall P cl -> P (Server r d cl None)) ->
  (forall r d cl p, P p -> P (Server r d cl (Some p))) -> forall s, P s.
Proof.
  intros P H1 H2. fix F 1. intros [r d cl [p|]].
  - apply H2. apply F.
  - apply H1. induction cl as [|c cl IH]; constructor; [apply F|apply IH].
Qed.
Lemma execs_idle : forall l, Forall (fun s => forall b, exists c, exec s b c) l -> exists cs, execs l (repeat false (length l)) cs.
Proof.
  intros l H. induction H as [|s l Hs _ [cs IH]]; [exists []; constructor|]. destruct (Hs false) as [c Hc]. exists (c :: cs). cbn [length repeat]. constructor; assumption.
Qed.
Lemma exec_exists : forall s b, exists c, exec s b c.
Proof.
  apply (server_nested (fun s => forall b, exists c, exec s b c)).
  - intros r d cl H b. destruct H as [|s cl Hs H]; [exists (indicator b); constructor|]. destruct (Hs b) as [c Hc]. destruct (execs_idle cl H) as [cs Hcs].
    exists (qsum (c :: cs)). apply (exec_packed r d (s :: cl) b (b :: repeat false (length cl)) (c :: cs)); [discriminate| |constructor; assumption].
    cbn [map qsum fold_right]. assert (Z : fold_right Qplus 0 (map indicator (repeat false (length cl))) == 0) by (clear; induction cl as [|x cl IH]; cbn [length repeat map fold_right indicator]; [reflexivity|rewrite IH; reflexivity]).
    rewrite Z. ring.
  - intros r d cl p H b. destruct (H (negb b)) as [c Hc]. exists c. constructor. assumption.
Qed.
Lemma execs_exists : forall l, exists cs, execs l (repeat true (length l)) cs.
Proof. induction l as [|s l [cs IH]]; [exists []; constructor|]. destruct (exec_exists s true) as [c Hc]. exists (c :: cs). cbn [length repeat]. constructor; assumption. Qed.
