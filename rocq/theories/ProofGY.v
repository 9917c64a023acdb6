(** Response-time analysis for uniprocessor EDF: termination and safety. *)
From Coq Require Import ZArith QArith Qround List Bool Lia Arith Sorted Permutation.
From Verif Require Import Base ModelTasks SpecUni SpecQPA ProofUni ProofGreedy ProofEDF ProofTasks ModelGY.
Import ListNotations.
Open Scope Z_scope.

Definition etask_of_task (t : task) : etask := ETask (t_cost t) (t_period t) (t_deadline t).

Definition dflt : task := Task 0 1 0.

Lemma dbf_jobs_due t x : pos_task t -> 0 < x -> dbf t x = t_cost t * jobs_due (etask_of_task t) x.
Proof.
  intros [P [D C]] Hx. unfold dbf, jobs_due. cbn [e_deadline e_period etask_of_task]. destruct (Z.leb_spec x 0); [lia|].
  destruct (Z.ltb_spec x (t_deadline t)) as [L|L].
  - pose proof (div_spec (x - t_deadline t) (t_period t) P). assert ((x - t_deadline t) / t_period t < 0) by nia. nia.
  - pose proof (Z.div_pos (x - t_deadline t) (t_period t) ltac:(lia) P). nia.
Qed.

Section Sched.
Variables (ts : taskset) (s : jobseq) (sc : schedule).
Variable POS : Forall pos_task ts.
Let ets := map etask_of_task ts.
Variable LEG : legal_edf ets s.
Variable VAL : valid_schedule (length ts) s sc.
Variable POL : edf_policy ets s sc.

Lemma wf_ets : Forall wf_etask ets.
Proof. apply Forall_map. eapply Forall_impl; [|exact POS]. intros t [P [D C]]. unfold wf_etask. cbn. lia. Qed.

Lemma len_ets : length ets = length ts.
Proof. apply map_length. Qed.

Lemma et_nth h : et ets h = etask_of_task (nth h ts dflt).
Proof. unfold et, ets. change (ETask 0 1 0) with (etask_of_task dflt). apply map_nth. Qed.

Lemma nth_pos h : (h < length ts)%nat -> pos_task (nth h ts dflt).
Proof. intros H. rewrite Forall_forall in POS. apply POS, nth_In, H. Qed.

(** busy period of job (i, k), [delta] before its deadline *)
Lemma response i k : (i < length ts)%nat -> let D := t_deadline (nth i ts dflt) in exists delta, D <= delta /\ delta <= Z.of_nat (arr s i k) + D /\
  (forall g, 0 < g -> mbf ts delta g <= g -> Z.of_nat (arr s i k) < Z.of_nat (arr s i k) + D - delta + g /\ completed s sc (i, k) (Z.to_nat (Z.of_nat (arr s i k) + D - delta + g))) /\
  (forall L, 0 < L -> ts_rbf ts L <= L -> delta < L + D).
Proof.
  intros Hi D. pose proof (nth_pos i Hi) as [PT [PD PC]]. fold D in PD. destruct (et_legal ets s wf_ets LEG i ltac:(rewrite len_ets; exact Hi)) as [_ Hl]. destruct (Hl k) as [_ [Hrel _]].
  set (d := due ets s (i, k)). assert (Hd : d = Z.of_nat (arr s i k) + D). { unfold d, due. cbn [fst snd]. fold (et ets i). rewrite et_nth. reflexivity. }
  set (P := fun j : job => Nat.ltb (fst j) (length ts) && (due ets s j <=? d)).
  assert (HPn : forall j, P j = true -> (fst j < length ts)%nat) by (intros j Hj; apply andb_prop in Hj; apply Nat.ltb_lt, Hj).
  assert (HPi : forall a b, P (a, b) = true -> (b <= rel s a b)%nat) by (intros a b Hj; apply HPn in Hj; apply (idx_le ets s wf_ets LEG); rewrite len_ets; exact Hj).
  assert (HPp : forall t j, P j = true -> pending s sc j t -> servesP sc P t = true).
  { intros t j Hj Hp. destruct (POL t j ltac:(rewrite len_ets; exact (HPn j Hj)) Hp) as [j' [E1 E2]]. unfold servesP. rewrite E1. destruct (VAL _ _ E1) as [Hj' _]. unfold P. rewrite (proj2 (Nat.ltb_lt _ _) Hj'). cbn [andb].
    apply Z.leb_le. apply andb_prop in Hj. destruct Hj as [_ Hj]. apply Z.leb_le in Hj. lia. }
  assert (HP0 : P (i, k) = true) by (unfold P; cbn [fst]; rewrite (proj2 (Nat.ltb_lt _ _) Hi); fold d; rewrite Z.leb_refl; reflexivity).
  destruct (busy_period s sc (length ts) P VAL HPn HPi HPp i k HP0) as [t1 [Ht1 Hw]]. rewrite Hrel in Ht1, Hw.
  set (delta := d - Z.of_nat t1).
  assert (WK : forall t2, (t1 < t2)%nat -> (t2 <= arr s i k)%nat \/ service sc (i, k) t2 < Z.of_nat (cst s i k) -> Z.of_nat (t2 - t1) < mbf ts delta (Z.of_nat (t2 - t1))).
  { intros t2 L C. eapply Z.lt_le_trans; [exact (Hw t2 L C)|]. unfold mbf. rewrite (zsum_map_nth _ dflt). apply sumf_le. intros a Ha. pose proof (nth_pos a Ha) as PA. pose proof PA as [PTa [PDa PCa]].
    destruct (et_legal ets s wf_ets LEG a ltac:(rewrite len_ets; exact Ha)) as [_ Hla].
    assert (CS : forall lo hi, lo <= hi -> (forall b, in_window s P t1 t2 a b = true -> lo <= Z.of_nat (arr s a b) < hi) ->
      sumf (fun b => if in_window s P t1 t2 a b then Z.of_nat (cst s a b) else 0) t2 <= t_cost (nth a ts dflt) * Z.max 0 (cdiv (hi - lo) (t_period (nth a ts dflt)))).
    { intros lo hi LH HB. apply Z.le_trans with (sumf (fun b => t_cost (nth a ts dflt) * b2z ((lo <=? Z.of_nat (arr s a b)) && (Z.of_nat (arr s a b) <? hi))) t2).
      - apply sumf_le. intros b Hb. destruct (Hla b) as [_ [_ Hc]]. rewrite et_nth in Hc. cbn [e_cost etask_of_task] in Hc. destruct (in_window s P t1 t2 a b) eqn:EW.
        + destruct (HB b EW) as [B1 B2]. rewrite (proj2 (Z.leb_le _ _) B1), (proj2 (Z.ltb_lt _ _) B2). cbn [andb b2z]. lia.
        + match goal with |- context [b2z ?x] => pose proof (b2z_range x) end. nia.
      - rewrite sumf_mul. apply Z.mul_le_mono_nonneg_l; [lia|]. eapply Z.le_trans; [apply count_separated with (T := t_period (nth a ts dflt)); [lia|]|lia].
        intros b. destruct (Hla b) as [H1 _]. rewrite et_nth in H1. exact H1. }
    unfold mbf_i. apply Z.min_glb.
    - destruct (Z.lt_ge_cases delta (t_deadline (nth a ts dflt))) as [SM|SM].
      + rewrite (sumf_zero _ t2); [unfold dbf; destruct (delta <=? 0); lia|]. intros b Hb. destruct (in_window s P t1 t2 a b) eqn:EW; [|reflexivity]. exfalso.
        unfold in_window in EW. apply andb_prop in EW. destruct EW as [EW E3]. apply andb_prop in EW. destruct EW as [E1 E2]. apply andb_prop in E1. destruct E1 as [_ E1]. apply Z.leb_le in E1. apply Nat.leb_le in E2.
        destruct (Hla b) as [_ [Hr _]]. unfold due in E1. cbn [fst snd] in E1. fold (et ets a) in E1. rewrite et_nth in E1. cbn [e_deadline etask_of_task] in E1. unfold delta in SM. lia.
      + rewrite (dbf_jobs_due _ delta PA ltac:(lia)). rewrite <- (jobs_due_cdiv (etask_of_task (nth a ts dflt)) delta) by (unfold wf_etask; cbn; lia). cbn [e_deadline e_period etask_of_task].
        replace (delta - t_deadline (nth a ts dflt) + 1) with (d - t_deadline (nth a ts dflt) + 1 - Z.of_nat t1) by (unfold delta; lia).
        apply CS; [unfold delta in SM; lia|]. intros b EW. unfold in_window in EW. apply andb_prop in EW. destruct EW as [EW E3]. apply andb_prop in EW. destruct EW as [E1 E2]. apply andb_prop in E1. destruct E1 as [_ E1]. apply Z.leb_le in E1. apply Nat.leb_le in E2.
        destruct (Hla b) as [_ [Hr _]]. unfold due in E1. cbn [fst snd] in E1. fold (et ets a) in E1. rewrite et_nth in E1. cbn [e_deadline etask_of_task] in E1. lia.
    - eapply Z.le_trans; [apply (CS (Z.of_nat t1) (Z.of_nat t2)); [lia|]|].
      + intros b EW. unfold in_window in EW. apply andb_prop in EW. destruct EW as [EW E3]. apply andb_prop in EW. destruct EW as [_ E2]. apply Nat.leb_le in E2. apply Nat.ltb_lt in E3. destruct (Hla b) as [_ [Hr _]]. lia.
      + unfold rbf. destruct (Z.ltb_spec (Z.of_nat (t2 - t1)) 0); [lia|]. rewrite Z.mul_comm. apply Z.mul_le_mono_nonneg_r; [lia|].
        pose proof (div_spec (Z.of_nat (t2 - t1)) (t_period (nth a ts dflt)) ltac:(lia)) as DS. replace (Z.of_nat t2 - Z.of_nat t1) with (Z.of_nat (t2 - t1)) by lia.
        assert (cdiv (Z.of_nat (t2 - t1)) (t_period (nth a ts dflt)) <= Z.of_nat (t2 - t1) / t_period (nth a ts dflt) + 1) by (apply cdiv_le_iff; lia).
        pose proof (Z.div_pos (Z.of_nat (t2 - t1)) (t_period (nth a ts dflt)) ltac:(lia) ltac:(lia)). lia. }
  exists delta. split; [unfold delta; lia|]. split; [unfold delta; lia|]. split.
  - intros g G1 G2. replace (Z.of_nat (arr s i k) + D - delta + g) with (Z.of_nat t1 + g) by (unfold delta; lia). set (t2 := (t1 + Z.to_nat g)%nat).
    assert (T2 : Z.of_nat (t2 - t1) = g) by (unfold t2; lia).
    assert (NO : ~ ((t2 <= arr s i k)%nat \/ service sc (i, k) t2 < Z.of_nat (cst s i k))).
    { intros C. pose proof (WK t2 ltac:(unfold t2; lia) C) as W. rewrite T2 in W. lia. }
    replace (Z.to_nat (Z.of_nat t1 + g)) with t2 by (unfold t2; lia). split.
    + destruct (Nat.le_gt_cases t2 (arr s i k)); [exfalso; tauto|]. unfold t2 in *. lia.
    + unfold completed. cbn [fst snd]. destruct (Z.le_gt_cases (Z.of_nat (cst s i k)) (service sc (i, k) t2)); [assumption|]. exfalso. tauto.
  - intros L L1 L2. destruct (Z.lt_ge_cases delta (L + D)) as [A|A]; [exact A|]. exfalso. set (t2 := (t1 + Z.to_nat L)%nat).
    assert (TL : (t2 <= arr s i k)%nat) by (unfold t2, delta in *; lia). pose proof (WK t2 ltac:(unfold t2; lia) (or_introl TL)) as W. replace (Z.of_nat (t2 - t1)) with L in W by (unfold t2; lia).
    assert (mbf ts delta L <= ts_rbf ts L); [|lia]. unfold mbf, ts_rbf. apply zsum_map_le. intros t _. unfold mbf_i. lia.
Qed.
End Sched.

(** * From arbitrary intervals to the points of change *)

Lemma dbf_same ts x y : Forall pos_task ts -> x <= y -> ts_dbf ts x = ts_dbf ts y -> forall t, In t ts -> dbf t x = dbf t y.
Proof.
  intros P L E t Ht. assert (ML : forall u, In u ts -> dbf u x <= dbf u y) by (intros u Hu; rewrite Forall_forall in P; destruct (P u Hu) as [? [? ?]]; apply dbf_mono; lia).
  destruct (Z.eq_dec (dbf t x) (dbf t y)) as [Q|Q]; [exact Q|]. exfalso. pose proof (ML t Ht).
  assert (ts_dbf ts x < ts_dbf ts y); [|lia]. unfold ts_dbf. clear P E L. induction ts as [|a l IH]; [destruct Ht|]. cbn [map zsum]. destruct Ht as [->|Ht].
  - assert (zsum (map (fun t => dbf t x) l) <= zsum (map (fun t => dbf t y) l)) by (apply zsum_map_le; intros u Hu; apply ML; right; exact Hu). lia.
  - pose proof (ML a (or_introl eq_refl)). assert (zsum (map (fun t => dbf t x) l) < zsum (map (fun t => dbf t y) l)) by (apply IH; [exact Ht|intros u Hu; apply ML; right; exact Hu]). lia.
Qed.

Lemma dbf_step ts t : Forall pos_task ts -> In t ts -> ts_dbf ts (t_deadline t) <> ts_dbf ts (t_deadline t - 1).
Proof.
  intros P Ht E. symmetry in E. pose proof (dbf_same ts (t_deadline t - 1) (t_deadline t) P ltac:(lia) E t Ht) as Q. rewrite Forall_forall in P. destruct (P t Ht) as [PT [PD PC]]. unfold dbf in Q.
  replace (t_deadline t - 1 - t_deadline t) with (-1) in Q by lia. rewrite Z.sub_diag, Z.div_0_l in Q by lia. destruct (Z.leb_spec (t_deadline t) 0); [lia|].
  assert (-1 / t_period t = -1). { apply div_unique_pos; lia. } rewrite H0 in Q. destruct (Z.leb_spec (t_deadline t - 1) 0); lia.
Qed.

Lemma mbf_same ts x y g : Forall pos_task ts -> x <= y -> ts_dbf ts x = ts_dbf ts y -> mbf ts x g = mbf ts y g.
Proof. intros P L E. unfold mbf. apply zsum_map_ext. intros t Ht. unfold mbf_i. rewrite (dbf_same ts x y P L E t Ht). reflexivity. Qed.

(** the last point of change before [delta] *)
Lemma last_point ts t : Forall pos_task ts -> In t ts -> forall n delta, delta = t_deadline t + Z.of_nat n ->
  exists p, t_deadline t <= p <= delta /\ ts_dbf ts p <> ts_dbf ts (p - 1) /\ ts_dbf ts p = ts_dbf ts delta.
Proof.
  intros P Ht. induction n as [|n IH]; intros delta E.
  - exists delta. replace delta with (t_deadline t) by lia. split; [lia|]. split; [apply dbf_step; assumption|reflexivity].
  - destruct (Z.eq_dec (ts_dbf ts delta) (ts_dbf ts (delta - 1))) as [Q|Q]; [|exists delta; split; [lia|split; [exact Q|reflexivity]]].
    destruct (IH (delta - 1) ltac:(lia)) as [p [P1 [P2 P3]]]. exists p. split; [lia|]. split; [exact P2|congruence].
Qed.

(** * The loops *)

Definition le_inf (a : option Z) (v : Z) : Prop := exists x, a = Some x /\ x <= v.

Lemma min_inf_le_l a b v : le_inf a v -> le_inf (min_inf a b) v.
Proof. intros [x [-> L]]. destruct b as [y|]; cbn; eexists; split; [reflexivity|lia|reflexivity|lia]. Qed.
Lemma min_inf_le_r a b v : le_inf b v -> le_inf (min_inf a b) v.
Proof. intros [x [-> L]]. destruct a as [y|]; cbn; eexists; split; [reflexivity|lia|reflexivity|lia]. Qed.

Lemma set_slack_len i v : forall s, length (set_slack i v s) = length s.
Proof. induction i as [|i IH]; intros [|x s]; cbn; auto. Qed.

Lemma set_slack_nth i v : forall s j, nth j (set_slack i v s) None = if Nat.eqb j i && Nat.ltb i (length s) then v else nth j s None.
Proof.
  induction i as [|i IH]; intros [|x s] j; cbn [set_slack length].
  - rewrite andb_false_r. reflexivity.
  - destruct j; cbn; [reflexivity|]. reflexivity.
  - rewrite andb_false_r. reflexivity.
  - destruct j as [|j]; [reflexivity|]. cbn [nth Nat.eqb]. rewrite IH. reflexivity.
Qed.

(** The tasks are sorted by deadline; [covered] is what the loops establish. *)
Section Loops.
Variable ts : taskset.
Let D (j : nat) : Z := t_deadline (nth j ts dflt).
Let n := length ts.
Variable SORTED : forall i j, (i < j < n)%nat -> D i <= D j.
Variable STRICT : forall i j, (0 < i < j)%nat -> (j < n)%nat -> D i < D j.

Lemma next_index_spec i delta : (i < n)%nat -> let i' := next_index ts i delta in (i' < n)%nat /\ (i <= i')%nat /\ (i' = i \/ i' = S i) /\ ((S i < n)%nat -> D (S i) <= delta -> i' = S i).
Proof.
  intros Hi. cbv zeta. unfold next_index. destruct (nth_error ts (S i)) as [t|] eqn:E.
  - assert (D (S i) = t_deadline t) by (unfold D; rewrite (nth_error_nth ts (S i) dflt E); reflexivity). apply nth_error_Some_lt in E. fold n in E. destruct (Z.leb_spec (t_deadline t) delta); repeat split; try lia; auto.
  - apply nth_error_None in E. fold n in E. repeat split; try lia; auto.
Qed.

(** after a step with the next point [delta], every task with deadline at most [delta]
    has an index of at most [i'] *)
Lemma index_step i prev delta (l : list Z) : (i < n)%nat -> (0 < n)%nat ->
  (forall j, (j < n)%nat -> D j <= prev -> (j <= i)%nat) ->
  (forall j, (j < n)%nat -> D j <= prev \/ delta <= D j) ->
  forall j, (j < n)%nat -> D j <= delta -> (j <= next_index ts i delta)%nat.
Proof.
  intros Hi N0 INV PT j Hj HD. destruct (next_index_spec i delta Hi) as [I1 [I2 [I3 I4]]].
  destruct (PT j Hj) as [A|A]; [specialize (INV j Hj A); lia|].
  destruct j as [|j]; [lia|].
  assert (J : (j <= i)%nat).
  { destruct j as [|j]; [lia|]. destruct (PT (S j) ltac:(lia)) as [B|B]; [apply INV; [lia|exact B]|]. pose proof (STRICT (S j) (S (S j)) ltac:(lia) Hj). lia. }
  destruct (Nat.eq_dec j i) as [->|NE]; [|lia]. rewrite I4; [lia|exact Hj|exact HD].
Qed.

Definition covers (s : list (option Z)) (v : Z -> Z) (x : Z) : Prop := forall j, (j < n)%nat -> D j <= x -> exists k, (j <= k < n)%nat /\ le_inf (nth k s None) (v x).

Lemma approx_loop_ok : forall deltas i s prev, (i < n)%nat -> length s = n -> StronglySorted Z.lt deltas ->
  (forall x, In x deltas -> prev < x) -> (forall j, (j < n)%nat -> D j <= prev -> (j <= i)%nat) -> (forall j, (j < n)%nat -> D j <= prev \/ In (D j) deltas) ->
  (forall k x, le_inf (nth k s None) x -> le_inf (nth k (approx_loop ts deltas i s) None) x) /\ length (approx_loop ts deltas i s) = n /\
  forall x, In x deltas -> covers (approx_loop ts deltas i s) (fun x => x - ts_dbf ts x) x.
Proof.
  induction deltas as [|delta r IH]; intros i s prev Hi Hs ST PR INV PT; [split; [intros; assumption|split; [exact Hs|intros x []]]|]. cbn [approx_loop].
  destruct (next_index_spec i delta Hi) as [I1 [I2 [I3 I4]]]. set (i' := next_index ts i delta) in *. set (s' := set_slack i' (min_inf (nth i' s None) (Some (delta - ts_dbf ts delta))) s).
  inversion ST as [|? ? ST1 ST2]; subst. rewrite Forall_forall in ST2.
  assert (PT2 : forall j, (j < n)%nat -> D j <= prev \/ delta <= D j).
  { intros j Hj. destruct (PT j Hj) as [A|[A|A]]; [left; exact A|right; lia|right]. specialize (ST2 _ A). lia. }
  pose proof (index_step i prev delta r Hi ltac:(lia) INV PT2) as IX. fold i' in IX.
  assert (MONO : forall k x, le_inf (nth k s None) x -> le_inf (nth k s' None) x).
  { intros k x H. unfold s'. rewrite set_slack_nth. destruct (Nat.eqb_spec k i') as [->|]; cbn [andb]; [|exact H]. destruct (Nat.ltb i' (length s)); [|exact H]. apply min_inf_le_l. exact H. }
  assert (NEW : le_inf (nth i' s' None) (delta - ts_dbf ts delta)).
  { unfold s'. rewrite set_slack_nth, Nat.eqb_refl, Hs, (proj2 (Nat.ltb_lt _ _) I1). cbn [andb]. apply min_inf_le_r. eexists. split; [reflexivity|lia]. }
  destruct (IH i' s' delta) as [R1 [R2 R3]]; [exact I1|unfold s'; rewrite set_slack_len; exact Hs|exact ST1|exact ST2|exact IX| |].
  { intros j Hj. destruct (PT j Hj) as [A|[A|A]]; [left; specialize (PR delta (or_introl eq_refl)); lia|left; lia|right; exact A]. }
  split; [intros k x H; apply R1, MONO, H|]. split; [exact R2|]. intros x [<-|Hx]; [|apply R3; exact Hx].
  intros j Hj HD. exists i'. split; [split; [apply IX; assumption|exact I1]|]. apply R1. exact NEW.
Qed.

Variable POS : Forall pos_task ts.

Lemma mbf_mono delta g g' : g <= g' -> mbf ts delta g <= mbf ts delta g'.
Proof. intros L. unfold mbf. apply zsum_map_le. intros t Ht. unfold mbf_i. rewrite Forall_forall in POS. destruct (POS t Ht) as [? [? ?]]. pose proof (rbf_mono t g g' ltac:(lia) ltac:(lia) L). lia. Qed.

Lemma mbf_le_dbf delta g : mbf ts delta g <= ts_dbf ts delta.
Proof. unfold mbf, ts_dbf. apply zsum_map_le. intros t _. unfold mbf_i. lia. Qed.

Lemma mbf_nonneg delta g : 0 <= g -> 0 <= mbf ts delta g.
Proof.
  intros G. unfold mbf. apply zsum_nonneg. intros x Hx. apply in_map_iff in Hx. destruct Hx as [t [<- Ht]]. rewrite Forall_forall in POS. destruct (POS t Ht) as [? [? ?]]. unfold mbf_i, dbf, rbf. apply Z.min_glb; [destruct (delta <=? 0); lia|].
  destruct (Z.ltb_spec g 0); [lia|]. pose proof (Z.div_pos g (t_period t) ltac:(lia) ltac:(lia)). nia.
Qed.

Lemma mbf_at_least delta g t : 0 <= g -> In t ts -> t_deadline t <= delta -> t_cost t <= mbf ts delta g.
Proof.
  intros G Ht L. unfold mbf. apply Z.le_trans with (mbf_i t delta g).
  - rewrite Forall_forall in POS. destruct (POS t Ht) as [PT [PD PC]]. unfold mbf_i, dbf, rbf. destruct (Z.leb_spec delta 0); [lia|]. destruct (Z.ltb_spec g 0); [lia|].
    pose proof (Z.div_pos g (t_period t) ltac:(lia) ltac:(lia)). pose proof (Z.div_pos (delta - t_deadline t) (t_period t) ltac:(lia) ltac:(lia)). apply Z.min_glb; nia.
  - apply (zsum_in_le _ (fun t => mbf_i t delta g)); [|exact Ht]. intros u Hu. rewrite Forall_forall in POS. destruct (POS u Hu) as [? [? ?]]. unfold mbf_i, dbf, rbf. apply Z.min_glb; [destruct (delta <=? 0); lia|]. destruct (Z.ltb_spec g 0); [lia|]. pose proof (Z.div_pos g (t_period u) ltac:(lia) ltac:(lia)). nia.
Qed.

(** the iteration returns the least fixed point *)
Lemma gamma_ok fuel delta : forall old new g, 0 <= old -> old <= new -> (new = mbf ts delta old) -> (forall x, 0 <= x -> mbf ts delta x <= x -> new <= x) ->
  gamma_loop fuel ts delta old new = Some g -> mbf ts delta g = g /\ 0 <= g /\ forall x, 0 <= x -> mbf ts delta x <= x -> g <= x.
Proof.
  induction fuel as [|fuel IH]; intros old new g H0 H1 H2 H3 H; [discriminate|]. cbn [gamma_loop] in H. destruct (Z.eqb_spec new old) as [E|E].
  - inversion H; subst g. split; [congruence|]. split; [lia|exact H3].
  - apply IH in H; [exact H|lia| |reflexivity|].
    + rewrite H2 at 1. apply mbf_mono. exact H1.
    + intros x X1 X2. transitivity (mbf ts delta x); [apply mbf_mono; apply H3; assumption|exact X2].
Qed.

Lemma gamma_total delta : forall fuel old new, 0 <= old -> old <= new -> new = mbf ts delta old -> (Z.to_nat (ts_dbf ts delta - old) < fuel)%nat -> exists g, gamma_loop fuel ts delta old new = Some g.
Proof.
  induction fuel as [|fuel IH]; intros old new H0 H1 H2 HF; [lia|]. cbn [gamma_loop]. destruct (Z.eqb_spec new old) as [E|E]; [eauto|]. pose proof (mbf_le_dbf delta old). apply IH; [lia| |reflexivity|lia].
  rewrite H2 at 1. apply mbf_mono. exact H1.
Qed.

Definition least_gamma (delta g : Z) : Prop := mbf ts delta g = g /\ 0 <= g /\ forall x, 0 <= x -> mbf ts delta x <= x -> g <= x.

Lemma gamma_least fuel delta g : gamma_loop fuel ts delta 0 (mbf ts delta 0) = Some g -> least_gamma delta g.
Proof.
  intros H. apply gamma_ok in H; [exact H|lia|apply mbf_nonneg; lia|reflexivity|]. intros x X1 X2. transitivity (mbf ts delta x); [apply mbf_mono; exact X1|exact X2].
Qed.

Lemma exact_loop_ok fuel : forall deltas i s prev s2, (i < n)%nat -> length s = n -> StronglySorted Z.lt deltas ->
  (forall x, In x deltas -> prev < x) -> (forall j, (j < n)%nat -> D j <= prev -> (j <= i)%nat) -> (forall j, (j < n)%nat -> D j <= prev \/ In (D j) deltas) ->
  exact_loop fuel ts deltas i s = Some s2 ->
  (forall k x, le_inf (nth k s None) x -> le_inf (nth k s2 None) x) /\ length s2 = n /\
  forall x g, In x deltas -> least_gamma x g -> covers s2 (fun x => x - g) x.
Proof.
  induction deltas as [|delta r IH]; intros i s prev s2 Hi Hs ST PR INV PT RUN.
  { inversion RUN; subst s2. split; [intros; assumption|split; [exact Hs|intros x g []]]. }
  cbn [exact_loop] in RUN.
  destruct (next_index_spec i delta Hi) as [I1 [I2 [I3 I4]]]. set (i' := next_index ts i delta) in *.
  inversion ST as [|? ? ST1 ST2]; subst. rewrite Forall_forall in ST2.
  assert (PT2 : forall j, (j < n)%nat -> D j <= prev \/ delta <= D j).
  { intros j Hj. destruct (PT j Hj) as [A|[A|A]]; [left; exact A|right; lia|right]. specialize (ST2 _ A). lia. }
  pose proof (index_step i prev delta r Hi ltac:(lia) INV PT2) as IX. fold i' in IX.
  assert (PT3 : forall j, (j < n)%nat -> D j <= delta \/ In (D j) r) by (intros j Hj; destruct (PT j Hj) as [A|[A|A]]; [left; specialize (PR delta (or_introl eq_refl)); lia|left; lia|right; exact A]).
  destruct (lt_inf (delta - ts_dbf ts delta) (nth i' s None)) eqn:LT.
  - destruct (gamma_loop fuel ts delta 0 (mbf ts delta 0)) as [gm|] eqn:GM; [|discriminate]. pose proof (gamma_least _ _ _ GM) as [G1 [G2 G3]].
    set (s' := set_slack i' (min_inf (nth i' s None) (Some (delta - gm))) s) in RUN.
    assert (MONO : forall k x, le_inf (nth k s None) x -> le_inf (nth k s' None) x).
    { intros k x H. unfold s'. rewrite set_slack_nth. destruct (Nat.eqb_spec k i') as [->|]; cbn [andb]; [|exact H]. destruct (Nat.ltb i' (length s)); [|exact H]. apply min_inf_le_l. exact H. }
    assert (NEW : le_inf (nth i' s' None) (delta - gm)).
    { unfold s'. rewrite set_slack_nth, Nat.eqb_refl, Hs, (proj2 (Nat.ltb_lt _ _) I1). cbn [andb]. apply min_inf_le_r. eexists. split; [reflexivity|lia]. }
    apply (IH i' s' delta) in RUN; [|exact I1|unfold s'; rewrite set_slack_len; exact Hs|exact ST1|exact ST2|exact IX|exact PT3]. destruct RUN as [R1 [R2 R3]].
    split; [intros k x H; apply R1, MONO, H|]. split; [exact R2|]. intros x g [<-|Hx] LG; [|apply R3; assumption].
    intros j Hj HD. exists i'. split; [split; [apply IX; assumption|exact I1]|]. apply R1. destruct LG as [L1 [L2 L3]]. assert (g = gm) by (apply Z.le_antisymm; [apply L3|apply G3]; lia). subst g. exact NEW.
  - apply (IH i' s delta) in RUN; [|exact I1|exact Hs|exact ST1|exact ST2|exact IX|exact PT3]. destruct RUN as [R1 [R2 R3]].
    split; [exact R1|]. split; [exact R2|]. intros x g [<-|Hx] LG; [|apply R3; assumption].
    intros j Hj HD. exists i'. split; [split; [apply IX; assumption|exact I1]|]. apply R1. unfold lt_inf in LT. destruct (nth i' s None) as [y|]; [|discriminate]. apply Z.ltb_ge in LT. exists y. split; [reflexivity|].
    destruct LG as [L1 _]. pose proof (mbf_le_dbf delta g). lia.
Qed.

Lemma exact_loop_total fuel : forall deltas i s, (forall x, In x deltas -> (Z.to_nat (ts_dbf ts x) < fuel)%nat) -> exists s2, exact_loop fuel ts deltas i s = Some s2.
Proof.
  induction deltas as [|delta r IH]; intros i s H; [eexists; reflexivity|]. cbn [exact_loop]. destruct (lt_inf _ _).
  - destruct (gamma_total delta fuel 0 (mbf ts delta 0)) as [g ->]; [lia|apply mbf_nonneg; lia|reflexivity|specialize (H delta (or_introl eq_refl)); rewrite Z.sub_0_r; exact H|]. apply IH. intros x Hx. apply H. right. exact Hx.
  - apply IH. intros x Hx. apply H. right. exact Hx.
Qed.
End Loops.

(** the exact slack is at least the approximate one *)
Definition ge_inf (a b : option Z) : Prop := match b with None => a = None | Some y => match a with Some x => y <= x | None => True end end.

Lemma ge_inf_min a b c d : ge_inf a b -> ge_inf c d -> ge_inf (min_inf a c) (min_inf b d).
Proof. destruct a, b, c, d; cbn; intros; try congruence; try lia; auto. Qed.

Lemma loops_compare ts fuel : Forall pos_task ts -> forall deltas i se sa s2, length se = length sa -> (forall k, ge_inf (nth k se None) (nth k sa None)) ->
  exact_loop fuel ts deltas i se = Some s2 -> forall k, ge_inf (nth k s2 None) (nth k (approx_loop ts deltas i sa) None).
Proof.
  intros POS. induction deltas as [|delta r IH]; intros i se sa s2 HL H RUN k; [inversion RUN; subst; apply H|]. cbn [exact_loop approx_loop] in *. set (i' := next_index ts i delta) in *.
  destruct (lt_inf (delta - ts_dbf ts delta) (nth i' se None)) eqn:LT.
  - destruct (gamma_loop fuel ts delta 0 (mbf ts delta 0)) as [gm|] eqn:GM; [|discriminate]. apply gamma_least in GM; [|exact POS]. destruct GM as [G1 _].
    revert k. apply (IH i' _ (set_slack i' (min_inf (nth i' sa None) (Some (delta - ts_dbf ts delta))) sa)) with (3 := RUN); [rewrite !set_slack_len; exact HL|].
    intros k. rewrite !set_slack_nth, HL. destruct (Nat.eqb k i' && Nat.ltb i' (length sa)); [|apply H]. apply ge_inf_min; [apply H|]. cbn. pose proof (mbf_le_dbf ts delta gm). lia.
  - revert k. apply (IH i' _ (set_slack i' (min_inf (nth i' sa None) (Some (delta - ts_dbf ts delta))) sa)) with (3 := RUN); [rewrite set_slack_len; exact HL|].
    intros k. rewrite set_slack_nth. destruct (Nat.eqb_spec k i') as [->|]; cbn [andb]; [|apply H]. destruct (Nat.ltb i' (length sa)); [|apply H].
    specialize (H i'). unfold lt_inf in LT. destruct (nth i' se None) as [x|]; [|discriminate]. apply Z.ltb_ge in LT. destruct (nth i' sa None) as [y|]; cbn in *; [lia|congruence].
Qed.
