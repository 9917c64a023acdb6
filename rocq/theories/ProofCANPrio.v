(** Robust priority assignment: soundness and optimality. *)
From Coq Require Import ZArith List Bool Lia Arith Permutation.
From Verif Require Import Base ModelCAN SpecCAN ProofCAN.
Import ListNotations.
Open Scope Z_scope.

Definition upd (g : nat -> Z) (x : nat) (v : Z) : nat -> Z := fun y => if Nat.eqb y x then v else g y.

Lemma set_id_with_ids g x v ms : set_id x v (with_ids g ms) = with_ids (upd g x v) ms.
Proof. unfold set_id, with_ids. rewrite map_map. apply map_ext. intros m. unfold prio, upd. cbn [cm_name]. destruct (Nat.eqb (cm_name m) x); reflexivity. Qed.

Lemma filter_map {A B} (f : A -> B) (p : B -> bool) l : filter p (map f l) = map f (filter (fun x => p (f x)) l).
Proof. induction l as [|a l IH]; [reflexivity|]. cbn [map filter]. destruct (p (f a)); cbn [map]; rewrite IH; reflexivity. Qed.

Section Prio.
Variables (b : canbus) (ms : list cmsg).
Variable WB : wf_bus b.
Variable WM : forall m, In m ms -> wf_msg m.
Variable NN : NoDup (map cm_name ms).

Lemma names_inj m k : In m ms -> In k ms -> cm_name m = cm_name k -> m = k.
Proof.
  intros Hm Hk E. clear WM. induction ms as [|a l IH]; [destruct Hm|]. cbn [map] in NN. inversion NN as [|? ? N1 N2]; subst. destruct Hm as [->|Hm], Hk as [->|Hk]; auto; exfalso; apply N1; [rewrite E|rewrite <- E]; apply in_map; assumption.
Qed.

Lemma wm_ids g m : In m (with_ids g ms) -> wf_msg m.
Proof. intros H. apply in_map_iff in H. destruct H as [k [<- H]]. exact (WM k H). Qed.

(** the recurrence in terms of the priorities *)
Definition cost (m : cmsg) (w : Z) (k : cmsg) : Z := cdiv (w - transfer_delay b m + cm_jitter k + b_tau b) (cm_period k) * (transfer_delay b k + b_ifs b).

Lemma rec_eq g m f w : recurrence b (with_ids g ms) (prio g m) f w =
  zmax (map (transfer_delay b) (filter (fun k => g (cm_name m) <? g (cm_name k)) ms)) + b_ifs b + transfer_delay b m
  + zsum (map (cost m w) (filter (fun k => g (cm_name k) <? g (cm_name m)) ms))
  + f * (zmax (map (transfer_delay b) (filter (fun k => g (cm_name k) <=? g (cm_name m)) ms)) + b_err b).
Proof. unfold recurrence, higher, lower, higher_or_equal, with_ids. rewrite !filter_map, !map_map. reflexivity. Qed.

Lemma rec_ext g h m f w : (forall k, In k ms -> (g (cm_name m) ?= g (cm_name k)) = (h (cm_name m) ?= h (cm_name k))) ->
  recurrence b (with_ids g ms) (prio g m) f w = recurrence b (with_ids h ms) (prio h m) f w.
Proof.
  intros H. rewrite !rec_eq.
  assert (E1 : filter (fun k => g (cm_name m) <? g (cm_name k)) ms = filter (fun k => h (cm_name m) <? h (cm_name k)) ms).
  { apply filter_ext_in. intros k Hk. unfold Z.ltb. rewrite (H k Hk). reflexivity. }
  assert (E2 : filter (fun k => g (cm_name k) <? g (cm_name m)) ms = filter (fun k => h (cm_name k) <? h (cm_name m)) ms).
  { apply filter_ext_in. intros k Hk. unfold Z.ltb. rewrite (Z.compare_antisym (g (cm_name m))), (Z.compare_antisym (h (cm_name m))), (H k Hk). reflexivity. }
  assert (E3 : filter (fun k => g (cm_name k) <=? g (cm_name m)) ms = filter (fun k => h (cm_name k) <=? h (cm_name m)) ms).
  { apply filter_ext_in. intros k Hk. unfold Z.leb. rewrite (Z.compare_antisym (g (cm_name m))), (Z.compare_antisym (h (cm_name m))), (H k Hk). reflexivity. }
  rewrite E1, E2, E3. reflexivity.
Qed.

Lemma tol_ext g h m f : (forall k, In k ms -> (g (cm_name m) ?= g (cm_name k)) = (h (cm_name m) ?= h (cm_name k))) -> tolerates b ms g m f -> tolerates b ms h m f.
Proof. intros H [w [W1 [W2 W3]]]. exists w. rewrite <- (rec_ext g h m f w H). auto. Qed.

Lemma zmax_attained l : zmax l = 0 \/ In (zmax l) l.
Proof.
  induction l as [|a l IH]; [left; reflexivity|]. cbn [zmax fold_right]. fold (zmax l). destruct (Z.max_spec a (zmax l)) as [[_ ->]|[_ ->]]; [|right; left; reflexivity].
  destruct IH as [->|IH]; [left; reflexivity|right; right; exact IH].
Qed.

Lemma zsum_filter {A} (f : A -> Z) (p : A -> bool) l : zsum (map f (filter p l)) = zsum (map (fun x => b2z (p x) * f x) l).
Proof. induction l as [|a l IH]; [reflexivity|]. cbn [filter map zsum]. destruct (p a); cbn [map zsum b2z]; rewrite IH; lia. Qed.

Lemma cost_ge m w k : In k ms -> transfer_delay b m <= w -> transfer_delay b k <= cost m w k.
Proof.
  intros Hk Hw. unfold cost. pose proof (transfer_pos b k WB (WM k Hk)). destruct (WM k Hk) as [_ [P J]]. destruct WB as [T [I _]].
  assert (1 <= cdiv (w - transfer_delay b m + cm_jitter k + b_tau b) (cm_period k)); [|nia].
  pose proof (cdiv_spec (w - transfer_delay b m + cm_jitter k + b_tau b) (cm_period k) ltac:(lia)) as [_ CS]. nia.
Qed.

(** moving a message to a lower priority level ... of interferers *)
Lemma rec_audsley g h m f w : In m ms -> 0 <= f -> transfer_delay b m <= w ->
  (forall k, In k ms -> h (cm_name k) < h (cm_name m) -> g (cm_name k) < g (cm_name m)) ->
  (forall k, In k ms -> h (cm_name k) <= h (cm_name m) -> g (cm_name k) <= g (cm_name m)) ->
  (forall k, In k ms -> h (cm_name m) < h (cm_name k) -> g (cm_name k) <> g (cm_name m)) ->
  recurrence b (with_ids h ms) (prio h m) f w <= recurrence b (with_ids g ms) (prio g m) f w.
Proof.
  intros Hm Hf Hw H1 H2 H3. rewrite !rec_eq.
  assert (R : zmax (map (transfer_delay b) (filter (fun k => h (cm_name k) <=? h (cm_name m)) ms)) <= zmax (map (transfer_delay b) (filter (fun k => g (cm_name k) <=? g (cm_name m)) ms))).
  { apply zmax_incl. intros x Hx. apply in_map_iff in Hx. destruct Hx as [k [<- Hk]]. apply filter_In in Hk. destruct Hk as [K1 K2]. apply Z.leb_le in K2. apply in_map. apply filter_In. split; [exact K1|]. apply Z.leb_le. apply H2; assumption. }
  assert (CN : forall k, In k ms -> 0 <= cost m w k) by (intros k Hk; pose proof (cost_ge m w k Hk Hw); pose proof (transfer_pos b k WB (WM k Hk)); lia).
  set (hp := fun k => h (cm_name k) <? h (cm_name m)). set (gp := fun k => g (cm_name k) <? g (cm_name m)).
  assert (S : zsum (map (cost m w) (filter gp ms)) = zsum (map (cost m w) (filter hp ms)) + zsum (map (fun k => (b2z (gp k) - b2z (hp k)) * cost m w k) ms)).
  { rewrite !zsum_filter, <- zsum_map_add. apply zsum_map_ext. intros; lia. }
  assert (N : forall k, In k ms -> 0 <= (b2z (gp k) - b2z (hp k)) * cost m w k).
  { intros k Hk. specialize (CN k Hk). unfold gp, hp. destruct (Z.ltb_spec (h (cm_name k)) (h (cm_name m))) as [L|L]; destruct (Z.ltb_spec (g (cm_name k)) (g (cm_name m))) as [L2|L2]; cbn [b2z]; try lia. specialize (H1 k Hk L). lia. }
  assert (SN : 0 <= zsum (map (fun k => (b2z (gp k) - b2z (hp k)) * cost m w k) ms)).
  { apply zsum_nonneg. intros x Hx. apply in_map_iff in Hx. destruct Hx as [k [<- Hk]]. apply N. exact Hk. }
  assert (B : zmax (map (transfer_delay b) (filter (fun k => h (cm_name m) <? h (cm_name k)) ms)) <=
              zmax (map (transfer_delay b) (filter (fun k => g (cm_name m) <? g (cm_name k)) ms)) + zsum (map (fun k => (b2z (gp k) - b2z (hp k)) * cost m w k) ms)).
  { destruct (zmax_attained (map (transfer_delay b) (filter (fun k => h (cm_name m) <? h (cm_name k)) ms))) as [E|E].
    - rewrite E. pose proof (zmax_nonneg (map (transfer_delay b) (filter (fun k => g (cm_name m) <? g (cm_name k)) ms))). lia.
    - apply in_map_iff in E. destruct E as [k [E Hk]]. rewrite <- E. apply filter_In in Hk. destruct Hk as [K1 K2]. apply Z.ltb_lt in K2. destruct (Z.lt_total (g (cm_name m)) (g (cm_name k))) as [G|[G|G]].
      + assert (transfer_delay b k <= zmax (map (transfer_delay b) (filter (fun k => g (cm_name m) <? g (cm_name k)) ms))); [|lia]. apply zmax_in, in_map, filter_In. split; [exact K1|apply Z.ltb_lt; exact G].
      + exfalso. apply (H3 k K1 K2). congruence.
      + pose proof (zsum_in_le _ (fun k => (b2z (gp k) - b2z (hp k)) * cost m w k) ms k N K1) as ZI. cbv beta in ZI.
        assert (GE : (b2z (gp k) - b2z (hp k)) = 1). { unfold gp, hp. destruct (Z.ltb_spec (g (cm_name k)) (g (cm_name m))); [|lia]. destruct (Z.ltb_spec (h (cm_name k)) (h (cm_name m))); [lia|]. reflexivity. }
        rewrite GE in ZI. pose proof (cost_ge m w k K1 Hw). pose proof (zmax_nonneg (map (transfer_delay b) (filter (fun k => g (cm_name m) <? g (cm_name k)) ms))). lia. }
  nia.
Qed.

Lemma tol_audsley g h m f : In m ms -> 0 <= f ->
  (forall k, In k ms -> h (cm_name k) < h (cm_name m) -> g (cm_name k) < g (cm_name m)) ->
  (forall k, In k ms -> h (cm_name k) <= h (cm_name m) -> g (cm_name k) <= g (cm_name m)) ->
  (forall k, In k ms -> h (cm_name m) < h (cm_name k) -> g (cm_name k) <> g (cm_name m)) ->
  tolerates b ms g m f -> tolerates b ms h m f.
Proof. intros Hm Hf H1 H2 H3 [w [W1 [W2 W3]]]. exists w. repeat split; auto. etransitivity; [apply (rec_audsley g h m f w); assumption|exact W2]. Qed.

(** the test of the code *)
Lemma sched_iff g m n : In m ms -> (br_is_schedulable b (with_ids g ms) (prio g m) n = true <-> tolerates b ms g m (Z.of_nat n)).
Proof.
  intros Hm. rewrite (br_schedulable_iff b _ _ n WB (wm_ids g)). destruct (wctt_ok b (with_ids g ms) (prio g m) (Z.of_nat n) WB (wm_ids g) ltac:(lia) _ (le_n _)) as [_ [W1 [W2 W3]]].
  change (transfer_delay b (prio g m)) with (transfer_delay b m) in *. change (cm_jitter (prio g m)) with (cm_jitter m) in *. change (cm_deadline (prio g m)) with (cm_deadline m) in *. split.
  - intros H. eexists. split; [exact (proj1 W1)|]. split; [rewrite (W3 H); reflexivity|exact H].
  - intros [w [X1 [X2 X3]]]. specialize (W2 w X1 X2). lia.
Qed.

Lemma tol_fewer g m f f' : f <= f' -> tolerates b ms g m f' -> tolerates b ms g m f.
Proof. intros H [w [W1 [W2 W3]]]. exists w. repeat split; auto. etransitivity; [apply (recurrence_faults _ _ _ f f' _ WB H)|exact W2]. Qed.

(** * The binary search *)
Lemma search_ok test : forall fuel lo hi, (lo < hi)%nat -> (hi - lo <= fuel)%nat -> test lo = true -> test hi = false -> (forall x y, (x <= y)%nat -> test y = true -> test x = true) ->
  forall f, test f = true <-> (f <= search_alpha fuel test lo hi)%nat.
Proof.
  induction fuel as [|fuel IH]; intros lo hi L1 L2 T1 T2 MON f; [lia|]. cbn [search_alpha]. destruct (Nat.ltb_spec 1 (hi - lo)) as [L|L].
  - pose proof (Nat.div_mod (lo + hi) 2 ltac:(lia)) as DM. pose proof (Nat.mod_upper_bound (lo + hi) 2 ltac:(lia)) as MU. set (mid := Nat.div (lo + hi) 2) in *. destruct (test mid) eqn:T; apply IH; try assumption; lia.
  - split; intros H; [|apply (MON f lo H T1)]. destruct (Nat.le_gt_cases f lo) as [A|A]; [exact A|]. assert (test hi = true) by (apply (MON hi f); [lia|exact H]). congruence.
Qed.

Variable ERR : 1 <= b_err b.

(** the assertion in line 44 *)
Lemma limit_fails g m : In m ms -> tolerates b ms g m (Z.of_nat (alpha_limit b m)) -> False.
Proof.
  intros Hm [w [W1 [W2 W3]]]. unfold recurrence in W2. change (transfer_delay b (prio g m)) with (transfer_delay b m) in W2. pose proof (transfer_pos b m WB (WM m Hm)). destruct (WM m Hm) as [_ [_ J]]. destruct WB as [_ [I _]].
  set (Z1 := zmax (map _ (lower _ _))) in W2. set (Z2 := zmax (map _ (higher_or_equal _ _))) in W2. set (Z3 := zsum _) in W2.
  assert (P1 : 0 <= Z1) by apply zmax_nonneg. assert (P2 : 0 <= Z2) by apply zmax_nonneg.
  assert (P3 : 0 <= Z3).
  { apply zsum_nonneg. intros x Hx. apply in_map_iff in Hx. destruct Hx as [k [<- Hk]]. apply filter_In in Hk. destruct Hk as [Hk _]. pose proof (wm_ids g k Hk) as Wk. pose proof (transfer_pos b k WB Wk). destruct Wk as [_ [Pk Jk]]. destruct WB as [T _].
    assert (0 <= cdiv (w - transfer_delay b m + cm_jitter k + b_tau b) (cm_period k)) by (apply cdiv_nonneg; lia). nia. }
  unfold alpha_limit in W2. pose proof (cdiv_spec (cm_deadline m) (b_err b) ltac:(lia)) as [_ CS]. pose proof (Z2Nat.id (cdiv (cm_deadline m) (b_err b))). nia.
Qed.

Lemma prio_upd g m v : prio (upd g (cm_name m) v) m = CMsg (cm_name m) v (cm_length m) (cm_period m) (cm_deadline m) (cm_jitter m).
Proof. unfold prio, upd. rewrite Nat.eqb_refl. reflexivity. Qed.

Lemma tolerance_some g m a : In m ms -> tolerance b (with_ids g ms) (prio g m) = Some a ->
  forall f : nat, tolerates b ms (upd g (cm_name m) 0) m (Z.of_nat f) <-> (f <= a)%nat.
Proof.
  intros Hm H f. unfold tolerance in H. cbn [cm_name prio cm_length cm_period cm_deadline cm_jitter] in H. rewrite set_id_with_ids, <- (prio_upd g) in H. set (h := upd g (cm_name m) 0) in *.
  destruct (br_is_schedulable b (with_ids h ms) (prio h m) 0) eqn:E; [|discriminate]. cbn [negb] in H. inversion H as [HA]. clear H.
  change (alpha_limit b (prio h m)) with (alpha_limit b m) in *.
  assert (LP : (0 < alpha_limit b m)%nat).
  { destruct (alpha_limit b m) eqn:A; [|lia]. exfalso. apply (limit_fails h m Hm). rewrite A. apply sched_iff; assumption. }
  rewrite <- (sched_iff h m f Hm). apply search_ok; [exact LP|lia|exact E| |].
  - destruct (br_is_schedulable b (with_ids h ms) (prio h m) (alpha_limit b m)) eqn:Q; [|reflexivity]. exfalso. apply (limit_fails h m Hm). apply sched_iff; assumption.
  - intros x y L Q. apply sched_iff; [exact Hm|]. apply sched_iff in Q; [|exact Hm]. apply (tol_fewer _ _ _ (Z.of_nat y)); [lia|exact Q].
Qed.

Lemma tolerance_none g m : In m ms -> tolerance b (with_ids g ms) (prio g m) = None -> ~ tolerates b ms (upd g (cm_name m) 0) m 0.
Proof.
  intros Hm H. unfold tolerance in H. cbn [cm_name prio cm_length cm_period cm_deadline cm_jitter] in H. rewrite set_id_with_ids, <- (prio_upd g) in H. set (h := upd g (cm_name m) 0) in *.
  destruct (br_is_schedulable b (with_ids h ms) (prio h m) 0) eqn:E; [discriminate|]. intros T. apply (sched_iff h m 0 Hm) in T. congruence.
Qed.

(** * One level *)
Lemma pick_ok L : match pick_candidate b L with
  | Some (x, a) => exists m, In m L /\ cm_id m <= 0 /\ cm_name m = x /\ tolerance b L m = Some a /\ forall k c, In k L -> cm_id k <= 0 -> tolerance b L k = Some c -> (c <= a)%nat
  | None => forall k, In k L -> cm_id k <= 0 -> tolerance b L k = None
  end.
Proof.
  unfold pick_candidate.
  set (step := fun (best : option (nat * nat)) (m : cmsg) => if 0 <? cm_id m then best else match tolerance b L m with None => best | Some alpha => match best with Some (_, ag) => if Nat.ltb ag alpha then Some (cm_name m, alpha) else best | None => Some (cm_name m, alpha) end end).
  set (P := fun (done : list cmsg) (best : option (nat * nat)) => match best with
    | Some (x, a) => exists m, In m done /\ cm_id m <= 0 /\ cm_name m = x /\ tolerance b L m = Some a /\ forall k c, In k done -> cm_id k <= 0 -> tolerance b L k = Some c -> (c <= a)%nat
    | None => forall k, In k done -> cm_id k <= 0 -> tolerance b L k = None end).
  assert (G : forall l done best, P done best -> P (rev l ++ done) (fold_left step l best)).
  { induction l as [|m l IH]; intros done best H; [exact H|]. cbn [fold_left rev]. rewrite <- app_assoc. apply IH. cbn [app]. unfold step. destruct (Z.ltb_spec 0 (cm_id m)) as [A|A].
    - unfold P in *. destruct best as [[x a]|].
      + destruct H as [m0 [H1 [H2 [H3 [H4 H5]]]]]. exists m0. repeat split; auto; [right; exact H1|]. intros k c [<-|Hk] HI HT; [lia|exact (H5 k c Hk HI HT)].
      + intros k [<-|Hk] HI; [lia|auto].
    - destruct (tolerance b L m) as [al|] eqn:T.
      + unfold P in *. destruct best as [[x a]|].
        * destruct H as [m0 [H1 [H2 [H3 [H4 H5]]]]]. destruct (Nat.ltb_spec a al) as [B|B].
          -- exists m. repeat split; auto; [left; reflexivity|]. intros k c [<-|Hk] HI HT; [assert (c = al) by congruence; lia|specialize (H5 k c Hk HI HT); lia].
          -- exists m0. repeat split; auto; [right; exact H1|]. intros k c [<-|Hk] HI HT; [assert (c = al) by congruence; lia|exact (H5 k c Hk HI HT)].
        * exists m. repeat split; auto; [left; reflexivity|]. intros k c [<-|Hk] HI HT; [assert (c = al) by congruence; lia|]. specialize (H k Hk HI). congruence.
      + unfold P in *. destruct best as [[x a]|].
        * destruct H as [m0 [H1 [H2 [H3 [H4 H5]]]]]. exists m0. repeat split; auto; [right; exact H1|]. intros k c [<-|Hk] HI HT; [congruence|exact (H5 k c Hk HI HT)].
        * intros k [<-|Hk] HI; [exact T|auto]. }
  specialize (G (rev L) [] None). rewrite rev_involutive, app_nil_r in G. apply G. intros k [].
Qed.

(** the state at level [l]: [l] messages without priority, the others have l+1, ..., n *)
Definition state (l : nat) (g : nat -> Z) : Prop :=
  (l <= length ms)%nat /\ Permutation (map (fun m => g (cm_name m)) ms) (repeat (-1) l ++ map Z.of_nat (seq (S l) (length ms - l))).

Lemma state_val l g m : state l g -> In m ms -> g (cm_name m) = -1 \/ Z.of_nat l < g (cm_name m) <= Z.of_nat (length ms).
Proof.
  intros [L H] Hm. apply (in_map (fun m => g (cm_name m))) in Hm. apply (Permutation_in _ H) in Hm. apply in_app_iff in Hm. destruct Hm as [Hm|Hm]; [left; apply repeat_spec in Hm; exact Hm|right].
  apply in_map_iff in Hm. destruct Hm as [x [E Hx]]. apply in_seq in Hx. lia.
Qed.

Lemma state_step l g m : state (S l) g -> In m ms -> g (cm_name m) = -1 -> state l (upd g (cm_name m) (Z.of_nat (S l))).
Proof.
  intros [L H] Hm E. split; [lia|]. destruct (in_split _ _ Hm) as [l1 [l2 Q]].
  assert (NX : forall k, In k (l1 ++ l2) -> upd g (cm_name m) (Z.of_nat (S l)) (cm_name k) = g (cm_name k)).
  { intros k Hk. unfold upd. destruct (Nat.eqb_spec (cm_name k) (cm_name m)) as [X|X]; [|reflexivity]. exfalso. clear - NN Q Hk X. rewrite Q in NN. rewrite map_app in NN. cbn [map] in NN. apply NoDup_remove_2 in NN. apply NN. rewrite <- map_app. rewrite <- X. apply in_map. exact Hk. }
  assert (M1 : Permutation (map (fun k => g (cm_name k)) ms) (-1 :: map (fun k => g (cm_name k)) (l1 ++ l2))).
  { rewrite Q, !map_app. cbn [map]. rewrite E. symmetry. apply Permutation_middle. }
  assert (M2 : Permutation (map (fun k => upd g (cm_name m) (Z.of_nat (S l)) (cm_name k)) ms) (Z.of_nat (S l) :: map (fun k => g (cm_name k)) (l1 ++ l2))).
  { rewrite Q, map_app. cbn [map]. rewrite <- Permutation_middle. rewrite <- map_app, (map_ext_in _ _ _ NX). unfold upd. rewrite Nat.eqb_refl. reflexivity. }
  rewrite M2. rewrite M1 in H. cbn [repeat app] in H. apply Permutation_cons_inv in H. rewrite H. rewrite Permutation_middle. apply Permutation_app_head.
  replace (length ms - l)%nat with (S (length ms - S l)) by lia. cbn [seq map]. reflexivity.
Qed.

(** assigned messages keep what they tolerate *)
Lemma keep l g x k f : state (S l) g -> In x ms -> g (cm_name x) = -1 -> In k ms -> 0 < g (cm_name k) -> tolerates b ms g k f -> tolerates b ms (upd g (cm_name x) (Z.of_nat (S l))) k f.
Proof.
  intros ST Hx E Hk P. apply tol_ext. intros j Hj. unfold upd. pose proof (state_val _ _ k ST Hk) as VK. destruct VK as [VK|VK]; [lia|]. destruct (Nat.eqb_spec (cm_name k) (cm_name x)) as [X|X]; [rewrite X in P; lia|].
  destruct (Nat.eqb_spec (cm_name j) (cm_name x)) as [Y|Y]; [|reflexivity]. rewrite Y, E. rewrite (proj2 (Z.compare_gt_iff _ _)) by lia. symmetry. apply Z.compare_gt_iff. lia.
Qed.

(** the new message *)
Lemma fresh l g x f : state (S l) g -> In x ms -> g (cm_name x) = -1 -> tolerates b ms (upd g (cm_name x) 0) x f -> tolerates b ms (upd g (cm_name x) (Z.of_nat (S l))) x f.
Proof.
  intros ST Hx E. apply tol_ext. intros j Hj. unfold upd. rewrite Nat.eqb_refl. destruct (Nat.eqb_spec (cm_name j) (cm_name x)) as [Y|Y]; [rewrite !Z.compare_refl; reflexivity|].
  destruct (state_val _ _ j ST Hj) as [V|V].
  - rewrite V. symmetry. apply Z.compare_gt_iff. lia.
  - rewrite (proj2 (Z.compare_lt_iff _ _)) by lia. symmetry. apply Z.compare_lt_iff. lia.
Qed.

Lemma levels_sound : forall l g ms', state l g -> (forall k, In k ms -> 0 < g (cm_name k) -> tolerates b ms g k 0) ->
  assign_levels b l (with_ids g ms) = Some ms' ->
  exists h, ms' = with_ids h ms /\ state 0 h /\ forall k, In k ms -> tolerates b ms h k 0.
Proof.
  induction l as [|l IH]; intros g ms' ST INV H; cbn [assign_levels] in H.
  - inversion H. exists g. split; [reflexivity|]. split; [exact ST|]. intros k Hk. apply INV; [exact Hk|].
    destruct ST as [_ P]. apply (in_map (fun m => g (cm_name m))) in Hk. apply (Permutation_in _ P) in Hk. cbn [repeat app] in Hk. apply in_map_iff in Hk. destruct Hk as [x [E Hx]]. apply in_seq in Hx. lia.
  - pose proof (pick_ok (with_ids g ms)) as PK. destruct (pick_candidate b (with_ids g ms)) as [[x a]|]; [|discriminate]. destruct PK as [m [M1 [M2 [M3 [M4 M5]]]]].
    apply in_map_iff in M1. destruct M1 as [m0 [<- M1]]. change (cm_name (prio g m0)) with (cm_name m0) in M3. change (cm_id (prio g m0)) with (g (cm_name m0)) in M2.
    assert (E : g (cm_name m0) = -1) by (destruct (state_val _ _ m0 ST M1); lia). subst x. rewrite set_id_with_ids in H. apply (IH _ _ (state_step l g m0 ST M1 E)) in H; [exact H|].
    intros k Hk P. destruct (Nat.eq_dec (cm_name k) (cm_name m0)) as [Q|Q].
    + assert (k = m0) by (apply names_inj; assumption). subst k. apply fresh; [exact ST|exact M1|exact E|]. apply (proj2 (tolerance_some g m0 a M1 M4 O)). lia.
    + apply (keep l); [exact ST|exact M1|exact E|exact Hk| |]; unfold upd in P; destruct (Nat.eqb_spec (cm_name k) (cm_name m0)); try contradiction; [exact P|apply INV; assumption].
Qed.

(** the unassigned message with the lowest priority in another assignment *)
Lemma lowest (h : nat -> Z) : forall l : list cmsg, l <> [] -> exists m, In m l /\ forall k, In k l -> h (cm_name k) <= h (cm_name m).
Proof.
  induction l as [|x l IH]; [congruence|]. intros _. destruct l as [|y l]; [exists x; split; [left; reflexivity|intros k [<-|[]]; lia]|].
  destruct (IH ltac:(discriminate)) as [m [M1 M2]]. destruct (Z.le_gt_cases (h (cm_name m)) (h (cm_name x))) as [A|A].
  - exists x. split; [left; reflexivity|]. intros k [<-|Hk]; [lia|]. specialize (M2 k Hk). lia.
  - exists m. split; [right; exact M1|]. intros k [<-|Hk]; [lia|exact (M2 k Hk)].
Qed.

Lemma levels_optimal h f : distinct_ids h ms -> (forall k, In k ms -> tolerates b ms h k (Z.of_nat f)) ->
  forall l g, state l g -> (forall k, In k ms -> 0 < g (cm_name k) -> tolerates b ms g k (Z.of_nat f)) ->
  exists g', assign_levels b l (with_ids g ms) = Some (with_ids g' ms) /\ forall k, In k ms -> tolerates b ms g' k (Z.of_nat f).
Proof.
  intros DI OK. induction l as [|l IH]; intros g ST INV; cbn [assign_levels].
  - exists g. split; [reflexivity|]. intros k Hk. apply INV; [exact Hk|].
    destruct ST as [_ P]. apply (in_map (fun m => g (cm_name m))) in Hk. apply (Permutation_in _ P) in Hk. cbn [repeat app] in Hk. apply in_map_iff in Hk. destruct Hk as [x [E Hx]]. apply in_seq in Hx. lia.
  - assert (DJ : forall j k, In j ms -> In k ms -> h (cm_name j) = h (cm_name k) -> j = k).
    { clear - DI. unfold distinct_ids in DI. induction ms as [|a r IHr]; [intros j k []|]. cbn [map] in DI. inversion DI as [|? ? N1 N2]; subst. intros j k [->|Hj] [->|Hk] E; auto; exfalso; apply N1; [rewrite E|rewrite <- E]; apply (in_map (fun m => h (cm_name m))); assumption. }
    set (U := filter (fun k => g (cm_name k) =? -1) ms). assert (UN : U <> []).
    { intros C0. destruct ST as [_ P]. assert (IN : In (-1) (map (fun m => g (cm_name m)) ms)) by (apply (Permutation_in _ (Permutation_sym P)); left; reflexivity). apply in_map_iff in IN. destruct IN as [k [E Hk]].
      assert (In k U) by (apply filter_In; split; [exact Hk|apply Z.eqb_eq; exact E]). rewrite C0 in H. exact H. }
    destruct (lowest h U UN) as [m [M1 M2]]. apply filter_In in M1. destruct M1 as [M1 ME]. apply Z.eqb_eq in ME.
    assert (TM : tolerates b ms (upd g (cm_name m) 0) m (Z.of_nat f)).
    { apply (tol_audsley h); [exact M1|lia| | | |apply OK; exact M1].
      - intros k Hk HL. unfold upd in HL. rewrite Nat.eqb_refl in HL. destruct (Nat.eqb_spec (cm_name k) (cm_name m)) as [Q|Q]; [lia|]. destruct (state_val _ _ k ST Hk) as [V|V]; [|lia].
        assert (In k U) by (apply filter_In; split; [exact Hk|apply Z.eqb_eq; exact V]). specialize (M2 k H). destruct (Z.eq_dec (h (cm_name k)) (h (cm_name m))) as [W|W]; [|lia]. exfalso. apply Q. f_equal. apply DJ; assumption.
      - intros k Hk HL. unfold upd in HL. rewrite Nat.eqb_refl in HL. destruct (Nat.eqb_spec (cm_name k) (cm_name m)) as [Q|Q]; [rewrite Q; lia|]. destruct (state_val _ _ k ST Hk) as [V|V]; [|lia].
        assert (In k U) by (apply filter_In; split; [exact Hk|apply Z.eqb_eq; exact V]). apply M2. exact H.
      - intros k Hk HL C0. unfold upd in HL. rewrite Nat.eqb_refl in HL. assert (k = m) by (apply DJ; assumption). subst k. rewrite Nat.eqb_refl in HL. lia. }
    pose proof (pick_ok (with_ids g ms)) as PK. destruct (pick_candidate b (with_ids g ms)) as [[x a]|].
    + destruct PK as [p [P1 [P2 [P3 [P4 P5]]]]]. apply in_map_iff in P1. destruct P1 as [m0 [<- P1]]. change (cm_name (prio g m0)) with (cm_name m0) in P3. change (cm_id (prio g m0)) with (g (cm_name m0)) in P2.
      assert (E : g (cm_name m0) = -1) by (destruct (state_val _ _ m0 ST P1); lia). subst x. rewrite set_id_with_ids.
      assert (FA : (f <= a)%nat).
      { destruct (tolerance b (with_ids g ms) (prio g m)) as [c|] eqn:T.
        - pose proof (proj1 (tolerance_some g m c M1 T f) TM). pose proof (P5 (prio g m) c ltac:(apply in_map; exact M1) ltac:(cbn [prio cm_id]; lia) T). lia.
        - exfalso. apply (tolerance_none g m M1 T). apply (tol_fewer _ _ _ (Z.of_nat f)); [lia|exact TM]. }
      apply IH; [apply state_step; assumption|]. intros k Hk P. destruct (Nat.eq_dec (cm_name k) (cm_name m0)) as [Q|Q].
      * assert (k = m0) by (apply names_inj; assumption). subst k. apply fresh; [exact ST|exact P1|exact E|]. apply (proj2 (tolerance_some g m0 a P1 P4 f)). exact FA.
      * apply (keep l); [exact ST|exact P1|exact E|exact Hk| |]; unfold upd in P; destruct (Nat.eqb_spec (cm_name k) (cm_name m0)); try contradiction; [exact P|apply INV; assumption].
    + exfalso. specialize (PK (prio g m) ltac:(apply in_map; exact M1) ltac:(cbn [prio cm_id]; lia)). apply (tolerance_none g m M1 PK). apply (tol_fewer _ _ _ (Z.of_nat f)); [lia|exact TM].
Qed.

Lemma state_start : state (length ms) (fun _ => -1).
Proof.
  split; [lia|]. rewrite Nat.sub_diag. cbn [seq map]. rewrite app_nil_r. clear. induction ms as [|a l IH]; [reflexivity|]. cbn [map length repeat]. rewrite IH. reflexivity.
Qed.
End Prio.
