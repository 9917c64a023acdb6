(** The criterion implies that every job meets its deadline. *)
From Coq Require Import NArith ZArith List Bool Lia Arith.
From Verif Require Import ModelNative ModelQPA ModelLocking ModelMSRP SpecLocking SpecSpinFP SpecSpinEDF ProofLocking ProofSpin ProofSpinCount ProofSpinFP ProofSpinRTA ProofMSRP ProofMSRPTest ProofLockRules ProofSpinEDF.
Import ListNotations.
Open Scope Z_scope.

Lemma nsum_concat' {A B} (f : A -> nat) (g : B -> list A) l : nsum f (concat (map g l)) = nsum (fun b => nsum f (g b)) l.
Proof. induction l as [|b l IH]; [reflexivity|]. cbn [map concat]. rewrite nsum_app, IH. reflexivity. Qed.

Lemma nsum_strict {A} (f g : A -> nat) l x : (forall y, In y l -> (f y <= g y)%nat) -> In x l -> (f x < g x)%nat -> (nsum f l < nsum g l)%nat.
Proof.
  induction l as [|y l IH]; intros H I S; [destruct I|]. cbn [nsum fold_right]. fold (nsum f l) (nsum g l). pose proof (H y (or_introl eq_refl)).
  pose proof (nsum_le f g l (fun z Hz => H z (or_intror Hz))). destruct I as [->|I]; [lia|]. specialize (IH (fun z Hz => H z (or_intror Hz)) I S). lia.
Qed.

Section Meet.
Variables (info : list taskinfo) (E : execution) (before : nat * nat -> nat * nat -> Prop) (n : nat).
Hypothesis EE : edf_execution info E before.
Hypothesis OK : msrp_ok info n.
Let LR := ee_locks _ _ _ EE.

Lemma rel_low i k t : nth_error info i = Some t -> Z.of_nat k <= x_rel E i k.
Proof.
  intros T. destruct (proj2 (mo_wf _ _ OK) t (nth_error_In _ _ T)) as [P _].
  pose proof (rel_spacing (x_rel E i) (ti_period t) P (fun k => proj2 (lr_rel _ _ LR i k t T)) 0 k) as S. pose proof (proj1 (lr_rel _ _ LR i 0 t T)). cbn [Nat.add] in S. nia.
Qed.

Variable c : nat.
Variable d : Z.

Definition quiet_at (t : Z) : Prop := forall x, on_cpu info c x -> due info E x <= d -> x_rel E (fst x) (snd x) < t -> x_comp E (fst x) (snd x) <= t.

Lemma quiet_dec t : quiet_at t \/ exists x, on_cpu info c x /\ due info E x <= d /\ x_rel E (fst x) (snd x) < t < x_comp E (fst x) (snd x).
Proof.
  set (bad := fun x : nat * nat => match nth_error info (fst x) with Some u => Nat.eqb (ti_cluster u) c && (due info E x <=? d) && (x_rel E (fst x) (snd x) <? t) && (t <? x_comp E (fst x) (snd x)) | None => false end).
  assert (B : forall x, bad x = true <-> on_cpu info c x /\ due info E x <= d /\ x_rel E (fst x) (snd x) < t < x_comp E (fst x) (snd x)).
  { intros x. unfold bad, on_cpu. destruct (nth_error info (fst x)) as [u|].
    - rewrite !andb_true_iff, Nat.eqb_eq, Z.leb_le, !Z.ltb_lt. split; [intros [[[A B] C] D]; split; [exists u; auto|lia]|]. intros [[u' [U C]] D]. inversion U; subst. lia.
    - split; [discriminate|]. intros [[u [U _]] _]. discriminate. }
  set (l := concat (map (fun i => map (pair i) (seq 0 (Z.to_nat t))) (seq 0 (length info)))).
  destruct (existsb bad l) eqn:X.
  - right. apply existsb_exists in X. destruct X as [x [_ X]]. exists x. apply B. exact X.
  - left. intros x C D R. destruct (Z.le_gt_cases (x_comp E (fst x) (snd x)) t) as [L|L]; [exact L|]. exfalso.
    assert (Y : existsb bad l = true); [|congruence]. apply existsb_exists. exists x. split; [|apply B; repeat split; auto; lia].
    destruct C as [u [U _]]. unfold l. apply in_concat. exists (map (pair (fst x)) (seq 0 (Z.to_nat t))). split.
    + apply in_map_iff. exists (fst x). split; [reflexivity|]. apply in_seq. pose proof (proj1 (nth_error_Some info (fst x)) ltac:(congruence)). lia.
    + apply in_map_iff. exists (snd x). split; [destruct x; reflexivity|]. apply in_seq. pose proof (rel_low (fst x) (snd x) u U). lia.
Qed.

Lemma last_quiet (m : nat) : exists t0, 0 <= t0 <= Z.of_nat m /\ quiet_at t0 /\ forall t, t0 < t <= Z.of_nat m -> exists x, on_cpu info c x /\ due info E x <= d /\ x_rel E (fst x) (snd x) < t < x_comp E (fst x) (snd x).
Proof.
  induction m as [|m IH].
  - exists 0. split; [lia|]. split; [|intros; lia]. intros x [u [U _]] _ R. pose proof (rel_low (fst x) (snd x) u U). lia.
  - destruct (quiet_dec (Z.of_nat (S m))) as [Q|Q]; [exists (Z.of_nat (S m)); split; [lia|split; [exact Q|intros; lia]]|].
    destruct IH as [t0 [T [Q0 N]]]. exists t0. split; [lia|split; [exact Q0|]]. intros t Ht. destruct (Z.eq_dec t (Z.of_nat (S m))) as [->|NE]; [exact Q|]. apply N. lia.
Qed.

Definition wjobs (t0 : Z) (t : taskinfo) : list nat := filter (fun k => (t0 <=? x_rel E (ti_id t) k) && (x_rel E (ti_id t) k + Z.of_N (ti_deadline t) <=? d)) (seq 0 (Z.to_nat d + 1)).

Lemma wjobs_length t0 t : In t info -> Z.of_nat (length (wjobs t0 t)) <= (if d - t0 <? Z.of_N (ti_deadline t) then 0 else (d - t0 - Z.of_N (ti_deadline t)) / Z.of_N (ti_period t) + 1).
Proof.
  intros T. pose proof (wf_id info t (mo_wf _ _ OK) T) as ID. destruct (proj2 (mo_wf _ _ OK) t T) as [P _].
  assert (IN : forall k, In k (wjobs t0 t) -> t0 <= x_rel E (ti_id t) k /\ x_rel E (ti_id t) k + Z.of_N (ti_deadline t) <= d).
  { intros k K. unfold wjobs in K. rewrite filter_In, andb_true_iff, !Z.leb_le in K. tauto. }
  destruct (Z.ltb_spec (d - t0) (Z.of_N (ti_deadline t))) as [L|L].
  - destruct (wjobs t0 t) as [|k l]; [cbn; lia|]. specialize (IN k (or_introl eq_refl)). lia.
  - pose proof (jobs_bound (x_rel E (ti_id t)) (ti_period t) P (fun k => proj2 (lr_rel _ _ LR (ti_id t) k t ID)) (wjobs t0 t) t0 (Z.to_N (d - t0 - Z.of_N (ti_deadline t) + 1))) as J.
    specialize (J ltac:(apply NoDup_filter, seq_NoDup) ltac:(intros k K; specialize (IN k K); lia)).
    pose proof (ceil_agrees (Z.to_N (d - t0 - Z.of_N (ti_deadline t) + 1)) (ti_period t) P) as C. rewrite Z2N.id in C by lia.
    replace (d - t0 - Z.of_N (ti_deadline t) + 1 + Z.of_N (ti_period t) - 1) with (d - t0 - Z.of_N (ti_deadline t) + 1 * Z.of_N (ti_period t)) in C by lia. rewrite Z.div_add in C by lia. lia.
Qed.

Definition wlist (t0 : Z) : list (taskinfo * nat) := concat (map (fun t => map (pair t) (wjobs t0 t)) (in_cluster c info)).

Lemma wlist_demand t0 : Z.of_nat (nsum (fun s : taskinfo * nat => N.to_nat (inflated info n (fst s))) (wlist t0)) <= demand_of info n c (d - t0).
Proof.
  unfold wlist, demand_of. fold (in_cluster c info). rewrite nsum_concat'.
  assert (I : incl (in_cluster c info) info) by (intros t T; apply filter_In in T; apply T). induction (in_cluster c info) as [|t l IH]; [cbn; lia|].
  cbn [nsum fold_right map]. fold (nsum (fun b => nsum (fun s : taskinfo * nat => N.to_nat (inflated info n (fst s))) (map (pair b) (wjobs t0 b))) l).
  specialize (IH (fun x X => I x (or_intror X))). pose proof (wjobs_length t0 t (I t (or_introl eq_refl))) as W.
  assert (C : nsum (fun s : taskinfo * nat => N.to_nat (inflated info n (fst s))) (map (pair t) (wjobs t0 t)) = (length (wjobs t0 t) * N.to_nat (inflated info n t))%nat).
  { clear. induction (wjobs t0 t) as [|k l IH]; [reflexivity|]. cbn [map nsum fold_right length fst Nat.mul]. fold (nsum (fun s : taskinfo * nat => N.to_nat (inflated info n (fst s))) (map (pair t) l)). rewrite IH. reflexivity. }
  rewrite C. destruct (Z.ltb_spec (d - t0) (Z.of_N (ti_deadline t))) as [L|L]; nia.
Qed.

Lemma in_wlist t0 x u : nth_error info (fst x) = Some u -> ti_cluster u = c -> t0 <= x_rel E (fst x) (snd x) -> due info E x <= d -> In (u, snd x) (wlist t0) /\ ti_id u = fst x.
Proof.
  intros U C R D. destruct (wf_nth info (fst x) u (mo_wf _ _ OK) U) as [ID IN]. split; [|exact ID]. unfold wlist. apply in_concat. exists (map (pair u) (wjobs t0 u)). split; [apply in_map_iff; exists u; split; [reflexivity|apply filter_In; split; [exact IN|apply Nat.eqb_eq; exact C]]|].
  apply in_map. unfold wjobs. rewrite ID. unfold due in D. rewrite U in D. apply filter_In. split; [|apply andb_true_iff; split; apply Z.leb_le; lia].
  apply in_seq. pose proof (rel_low (fst x) (snd x) u U). lia.
Qed.

Hypothesis CR : msrp_criterion info n c.

Lemma no_miss j k0 : nth_error info (fst j) = Some k0 -> ti_cluster k0 = c -> due info E j = d -> x_comp E (fst j) (snd j) <= d.
Proof.
  intros K C D. destruct (Z.le_gt_cases (x_comp E (fst j) (snd j)) d) as [L|MISS]; [exact L|exfalso].
  pose proof (rel_low (fst j) (snd j) k0 K) as R0. assert (RD : x_rel E (fst j) (snd j) <= d) by (unfold due in D; rewrite K in D; lia).
  assert (CJ : on_cpu info c j) by (exists k0; auto).
  destruct (last_quiet (Z.to_nat (x_rel E (fst j) (snd j)))) as [t0 [T0 [Q N]]]. rewrite Z2Nat.id in * by lia.
  assert (BUSY : forall t, t0 <= t < d -> exists x, on_cpu info c x /\ pending E x t /\ due info E x <= d).
  { intros t T. destruct (Z.le_gt_cases (x_rel E (fst j) (snd j)) t) as [L|L]; [exists j; split; [exact CJ|split; [unfold pending; lia|lia]]|].
    destruct (N (t + 1) ltac:(lia)) as [x [CX [DX RX]]]. exists x. split; [exact CX|split; [|exact DX]]. unfold pending. lia. }
  set (L := d - t0). assert (L0 : 0 <= L) by (unfold L; lia). set (m := Z.to_nat L).
  assert (COV : (m <= nsum (fun s : taskinfo * nat => count (runs E info (ti_id (fst s), snd s)) t0 m) (wlist t0) + count (intr info E c d) t0 m)%nat).
  { set (g := fun s : option (taskinfo * nat) => match s with Some s => runs E info (ti_id (fst s), snd s) | None => intr info E c d end).
    assert (X : (count (fun _ => true) t0 m <= nsum (fun s => count (g s) t0 m) (None :: map Some (wlist t0)))%nat).
    { apply count_cover. intros t T _. assert (TW : t0 <= t < d) by (unfold m, L in T; lia). destruct (BUSY t TW) as [x [CX [PX DX]]].
      pose proof (ee_conserving _ _ _ EE c x t CX PX) as NI. destruct (x_sched E c t) as [y|] eqn:S; [|congruence]. destruct (sched_on_cpu info E before EE c y t S) as [CY PY].
      destruct (Z.lt_ge_cases d (due info E y)) as [LD|LD].
      - exists None. split; [left; reflexivity|]. cbn [g]. unfold intr. rewrite S. apply Z.ltb_lt. exact LD.
      - pose proof (in_window info E c t0 d Q y t ltac:(lia) CY PY LD) as RY. destruct CY as [u [U CU]]. destruct (in_wlist t0 y u U CU RY LD) as [IW ID].
        exists (Some (u, snd y)). split; [right; apply in_map; exact IW|]. cbn [g fst snd]. rewrite ID. replace (fst y, snd y) with y by (destruct y; reflexivity). apply (on_cpu_runs info E c y t); [exists u; auto|exact S]. }
    rewrite count_true in X. cbn [nsum fold_right] in X. fold (nsum (fun s => count (g s) t0 m) (map Some (wlist t0))) in X. cbn [g] in X.
    assert (Y : nsum (fun s => count (g s) t0 m) (map Some (wlist t0)) = nsum (fun s : taskinfo * nat => count (runs E info (ti_id (fst s), snd s)) t0 m) (wlist t0)).
    { clear. induction (wlist t0) as [|s l IH]; [reflexivity|]. cbn [map nsum fold_right]. fold (nsum (fun s => count (g s) t0 m) (map Some l)). rewrite IH. reflexivity. }
    rewrite Y in X. lia. }
  assert (W : (nsum (fun s : taskinfo * nat => count (runs E info (ti_id (fst s), snd s)) t0 m) (wlist t0) < nsum (fun s : taskinfo * nat => N.to_nat (inflated info n (fst s))) (wlist t0))%nat).
  { destruct (in_wlist t0 j k0 K C ltac:(lia) ltac:(lia)) as [IW ID]. apply nsum_strict with (x := (k0, snd j)); [|exact IW|].
    - intros [u k] I. cbn [fst snd]. unfold wlist in I. apply in_concat in I. destruct I as [l [I1 I2]]. apply in_map_iff in I1. destruct I1 as [u' [<- U']]. apply in_map_iff in I2. destruct I2 as [k' [EQ _]]. inversion EQ; subst u' k'.
      apply filter_In in U'. destruct U' as [U' _]. pose proof (runs_total info E LR (ee_fifo _ _ _ EE) n (mo_cpu _ _ OK) (ti_id u) k u t0 m (wf_id info u (mo_wf _ _ OK) U') (mo_cost _ _ OK u U')). lia.
    - cbn [fst snd]. rewrite ID. pose proof (runs_before info E LR (ee_fifo _ _ _ EE) n (mo_cpu _ _ OK) (fst j) (snd j) k0 d t0 m K) as RB. specialize (RB ltac:(unfold pending; cbn [fst snd]; lia) ltac:(unfold m, L; lia)). lia. }
  pose proof (wlist_demand t0) as WD. fold L in WD. destruct (CR L L0) as [C1 C2].
  destruct (intr_bound info E before n EE OK c t0 d Q BUSY ltac:(lia)) as [Z0|[v [V1 V2]]].
  - fold L in Z0. fold m in Z0. unfold m in *. lia.
  - fold L in V1, V2. fold m in V2. specialize (C2 v V1). unfold m in *. lia.
Qed.
End Meet.

Lemma criterion_meets info E before n : edf_execution info E before -> msrp_ok info n -> (forall c, msrp_criterion info n c) -> all_meet info E.
Proof.
  intros EE OK CR i k t T. apply (no_miss info E before n EE OK (ti_cluster t) _ (CR (ti_cluster t)) (i, k) t T eq_refl). unfold due. cbn [fst snd]. rewrite T. reflexivity.
Qed.
