(** Soundness of the C++ test of Liu and Anderson for constrained deadlines. *)
From Coq Require Import ZArith QArith Qround List Bool Lia Lqa Permutation Wf_nat.
From Verif Require Import Base ModelTasks SpecTasks ProofTasks SpecUni SpecQPA SpecGlobal SpecSusp ProofUni ProofEDF ProofGlobal ProofGFB ModelNative ModelGEDF ModelGEDFNative ProofGEDF ProofBusy ProofBAK ProofBARTop ProofQPA ModelLA ProofLACore ProofLAPoints.
Import ListNotations.
Open Scope Z_scope.

(** the task as the specification sees it *)
Definition en (t : ntask) : etask := ETask (n_wcet t) (n_period t) (n_deadline t).
Definition dnt : ntask := NTask 0 1 0 0 0 0.
Definition susp_of (ts : ntaskset) (i : nat) : Z := n_susp (nth i ts dnt).

Lemma et_en : forall ts i, et (map en ts) i = en (nth i ts dnt).
Proof. intros. unfold et. change (ETask 0 1 0) with (en dnt). apply map_nth. Qed.

Lemma no_first_susp_miss : forall (m : nat) ts S, Forall wf_etask ts -> (forall i, (i < length ts)%nat -> 0 <= e_deadline (et ts i)) ->
  (forall s sc tot su, legal_edf ts s -> gvalid (length ts) m s sc -> suspends (length ts) S s sc tot su -> sgedf ts m s sc su ->
     forall d, (forall i h d', (i < length ts)%nat -> (d' < d)%nat -> Z.of_nat d' = due ts s (i, h) -> gcompleted s sc (i, h) d') ->
     forall k q, (k < length ts)%nat -> due ts s (k, q) = Z.of_nat d -> ~ finished s sc tot su (k, q) d -> False) ->
  sgedf_schedulable ts S m.
Proof.
  intros m ts S Hw HD H s sc tot su Hl Hv Hs Hp j e He.
  assert (Hj : (fst j < length ts)%nat) by (apply nth_error_Some; congruence).
  assert (Ee : e = et ts (fst j)) by (unfold et; symmetry; apply nth_error_nth; assumption).
  specialize (H s sc tot su Hl Hv Hs Hp).
  assert (G : forall d i h, (i < length ts)%nat -> Z.of_nat d = due ts s (i, h) -> finished s sc tot su (i, h) d).
  { induction d as [d IH] using (well_founded_induction lt_wf). intros i h Hi E.
    assert (Dec : finished s sc tot su (i, h) d \/ ~ finished s sc tot su (i, h) d).
    { unfold finished, gcompleted. destruct (Z.le_gt_cases (Z.of_nat (cst s (fst (i, h)) (snd (i, h)))) (gservice sc (i, h) d));
        destruct (Z.le_gt_cases (Z.of_nat (tot (fst (i, h)) (snd (i, h)))) (suspended_time su (i, h) d)); [left; tauto|right; lia|right; lia|right; lia]. }
    destruct Dec as [X|X]; [exact X|exfalso].
    apply (H d) with (k := i) (q := h); [|assumption|symmetry; assumption|assumption].
    intros i' h' d' Hi' Hd' E'. apply (IH d' Hd' i' h' Hi' E'). }
  exists (Z.to_nat (due ts s j)).
  assert (Hd : 0 <= due ts s j).
  { unfold due. fold (et ts (fst j)). specialize (HD (fst j) Hj). lia. }
  split.
  - rewrite Z2Nat.id by assumption. unfold due. fold (et ts (fst j)). rewrite <- Ee. lia.
  - destruct j as [i h]. apply G; [assumption|]. rewrite Z2Nat.id by assumption. reflexivity.
Qed.

Lemma la_delta_wl : forall t x, 0 <= x -> 1 <= n_period t -> 0 <= n_wcet t <= n_period t -> la_delta t x = wl (n_wcet t) (n_period t) x.
Proof.
  intros t x Hx HT HC. unfold la_delta, wl, divide_with_ceil. destruct (Z.ltb_spec x 0); [lia|].
  set (T := n_period t) in *. set (C := n_wcet t) in *. pose proof (Z.div_mod x T ltac:(lia)) as E. pose proof (Z.mod_pos_bound x T ltac:(lia)) as B.
  set (qq := x / T) in *. set (rr := x mod T) in *. destruct (Z.eq_dec rr 0) as [E0|N].
  - rewrite (cdiv_unique x T qq ltac:(lia)) by nia. replace (x - qq * T + T) with T by lia. rewrite E0. lia.
  - rewrite (cdiv_unique x T (qq + 1) ltac:(lia)) by nia. replace (x - (qq + 1) * T + T) with rr by lia. lia.
Qed.

Lemma bound_demand_jobs : forall t x N, 1 <= n_period t -> 0 <= n_wcet t -> 0 <= N ->
  (N = 0 \/ (N - 1) * n_period t + n_deadline t <= x) -> N * n_wcet t <= bound_demand t x.
Proof.
  intros t x N HT HC HN H. unfold bound_demand. destruct (Z.ltb_spec (x - n_deadline t) 0) as [L|L].
  - destruct H as [->|H]; [lia|]. destruct (Z.eq_dec N 0) as [->|E]; [lia|]. nia.
  - destruct H as [->|H]; [assert (0 <= (x - n_deadline t) / n_period t) by (apply Z.div_pos; lia); nia|].
    assert (N - 1 <= (x - n_deadline t) / n_period t) by (apply Z.div_le_lower_bound; lia). nia.
Qed.

Lemma bound_demand_wl : forall t x, 0 <= x -> 1 <= n_deadline t -> n_deadline t <= n_period t -> 0 <= n_wcet t <= n_deadline t ->
  bound_demand t x <= wl (n_wcet t) (n_period t) x.
Proof.
  intros t x Hx HD HT HC. unfold bound_demand, wl. destruct (Z.ltb_spec x 0); [lia|]. set (T := n_period t) in *. set (D := n_deadline t) in *. set (C := n_wcet t) in *.
  pose proof (Z.div_mod x T ltac:(lia)) as E. pose proof (Z.mod_pos_bound x T ltac:(lia)) as B.
  assert (Q0 : 0 <= x / T) by (apply Z.div_pos; lia). set (q := x / T) in *. set (rr := x mod T) in *.
  destruct (Z.ltb_spec (x - D) 0) as [L|L]; [nia|]. destruct (Z.le_gt_cases D rr) as [L'|L'].
  - assert (Eq : (x - D) / T = q) by (symmetry; apply Z.div_unique with (rr - D); lia). rewrite Eq. nia.
  - assert (Eq : (x - D) / T = q - 1) by (symmetry; apply Z.div_unique with (rr - D + T); lia). rewrite Eq. nia.
Qed.

Lemma la_loop_true : forall fuel slow m ts l, la_loop fuel slow m ts l = Some true ->
  forall i t x, In ((i, t), x) l -> la_suspension fuel (slow i x) m ts i t x = Some true.
Proof.
  intros fuel slow m ts. induction l as [|[[i0 t0] x0] l IH]; intros H i t x Hin; [destruct Hin|]. cbn [la_loop] in H.
  destruct (la_suspension fuel (slow i0 x0) m ts i0 t0 x0) as [[|]|] eqn:E; [|discriminate|discriminate].
  destruct Hin as [Eq|Hin]; [|apply IH; assumption]. injection Eq as -> -> ->. assumption.
Qed.

Lemma nindexed_seq : forall (ts : ntaskset), indexed ts = map (fun i => (i, nth i ts dnt)) (seq 0 (length ts)).
Proof.
  intros ts. unfold indexed. assert (G : forall a, combine (seq a (length ts)) ts = map (fun i => (i, nth (i - a) ts dnt)) (seq a (length ts))).
  { induction ts as [|t r IH]; intros a; [reflexivity|]. cbn [length seq combine map]. rewrite Nat.sub_diag. cbn [nth]. f_equal.
    rewrite IH. apply map_ext_in. intros i Hi. apply in_seq in Hi. replace (i - a)%nat with (S (i - S a)) by lia. reflexivity. }
  rewrite G. apply map_ext. intros i. rewrite Nat.sub_0_r. reflexivity.
Qed.

Lemma fold_qsum : forall A (f : A -> Q) l a, (fold_left (fun u t => u + f t) l a == a + qsum (map f l))%Q.
Proof.
  intros A f. induction l as [|x l IH]; intros a; cbn; [ring|]. rewrite IH. unfold qsum. ring.
Qed.

Lemma qsum_nth_n : forall (f : ntask -> Q) ts, (qsum (map (fun i => f (nth i ts dnt)) (seq 0 (length ts))) == qsum (map f ts))%Q.
Proof.
  intros f ts. assert (G : forall a, (qsum (map (fun i => f (nth (i - a) ts dnt)) (seq a (length ts))) == qsum (map f ts))%Q).
  { induction ts as [|t r IH]; intros a; [reflexivity|]. cbn [length seq map]. cbn [qsum fold_right].
    rewrite Nat.sub_diag. cbn [nth]. change (fold_right Qplus 0%Q) with qsum.
    rewrite (map_ext_in _ (fun i => f (nth (i - S a) r dnt))).
    - rewrite (IH (S a)). reflexivity.
    - intros i Hi. apply in_seq in Hi. replace (i - a)%nat with (S (i - S a)) by lia. reflexivity. }
  rewrite <- (G 0%nat). rewrite (map_ext (fun i => f (nth (i - 0) ts dnt)) (fun i => f (nth i ts dnt))); [reflexivity|].
  intros i. rewrite Nat.sub_0_r. reflexivity.
Qed.

(** a mask of positions and the sum of the largest values *)
Lemma topsum_idx : forall (F : nat -> Z) (car : nat -> bool) n k, (forall i, (i < n)%nat -> 0 <= F i) -> sumf (fun i => b2z (car i)) n <= Z.of_nat k ->
  (inject_Z (sumf (fun i => (b2z (car i) * F i)%Z) n) <= topsum (map F (seq 0 n)) inject_Z k)%Q.
Proof.
  intros F car n k HF Hc. rewrite <- qsum_inject. eapply Qle_trans; [|apply (topsum_mask Z _ inject_Z 0 car)].
  - rewrite map_length, seq_length. apply Qle_lteq. right. apply qsum_ext. intros i Hi. apply in_seq in Hi.
    rewrite nth_indep with (d' := F 0%nat) by (rewrite map_length, seq_length; lia).
    rewrite (map_nth F (seq 0 n) 0%nat i), seq_nth by lia. rewrite inject_Z_mult. reflexivity.
  - intros x Hx. apply in_map_iff in Hx. destruct Hx as [i [<- Hi]]. apply in_seq in Hi. change 0%Q with (inject_Z 0). apply zq_le. apply HF. lia.
  - rewrite map_length, seq_length. lia.
Qed.

Definition la_task (t : ntask) : Prop := 0 <= n_susp t /\ n_tardiness t = 0 /\ n_deadline t <= n_period t /\ 0 < n_wcet t /\ n_wcet t + n_susp t <= n_deadline t.

(** utilization bound of the work of a task *)
Lemma work_util : forall t L w, la_task t -> 0 <= L -> w <= wl (n_wcet t) (n_period t) L \/
    (exists N, 0 <= N /\ (N = 0 \/ (N - 1) * n_period t + n_deadline t <= L) /\ w <= N * n_wcet t) ->
  (inject_Z w <= n_util t * inject_Z L + inject_Z (n_wcet t))%Q.
Proof.
  intros t L w [T1 [T2 [T3 [T4 T5]]]] HL H.
  assert (Eu : (n_util t * inject_Z (n_period t) == inject_Z (n_wcet t))%Q).
  { unfold n_util, frac. field. intros X. change 0%Q with (inject_Z 0) in X. rewrite inject_Z_injective in X. lia. }
  assert (Nu : (0 <= n_util t)%Q).
  { unfold n_util, frac. apply Qle_shift_div_l; [change 0%Q with (inject_Z 0); rewrite <- Zlt_Qlt; lia|]. rewrite Qmult_0_l. change 0%Q with (inject_Z 0). apply zq_le. lia. }
  assert (G : exists qq, 0 <= qq /\ qq * n_period t <= L /\ w <= qq * n_wcet t + n_wcet t).
  { destruct H as [H|[N [N1 [N2 N3]]]].
    - unfold wl in H. destruct (Z.ltb_spec L 0); [lia|]. exists (L / n_period t).
      pose proof (Z.div_mod L (n_period t) ltac:(lia)). pose proof (Z.mod_pos_bound L (n_period t) ltac:(lia)).
      split; [apply Z.div_pos; lia|]. split; [lia|]. lia.
    - destruct (Z.eq_dec N 0) as [->|E]; [exists 0; split; [lia|]; split; lia|]. destruct N2 as [?|N2]; [lia|].
      exists (N - 1). split; [lia|]. split; [lia|]. lia. }
  destruct G as [qq [G1 [G2 G3]]]. apply zq_le in G2. apply zq_le in G3. rewrite inject_Z_plus, inject_Z_mult in G3. rewrite inject_Z_mult in G2.
  assert (W3 : (inject_Z qq * inject_Z (n_wcet t) <= n_util t * inject_Z L)%Q).
  { rewrite <- Eu. setoid_replace (inject_Z qq * (n_util t * inject_Z (n_period t)))%Q with (inject_Z qq * inject_Z (n_period t) * n_util t)%Q by ring.
    rewrite (Qmult_comm (n_util t)). apply Qmult_le_compat_r; assumption. }
  lra.
Qed.

Lemma util_nonneg : forall ts, Forall la_task ts -> (0 <= qsum (map n_util ts))%Q.
Proof.
  induction 1 as [|t ts [T1 [T2 [T3 [T4 T5]]]] _ IH]; cbn; [lra|]. unfold qsum in IH.
  assert (0 <= n_util t)%Q; [|lra]. unfold n_util, frac. apply Qle_shift_div_l; [change 0%Q with (inject_Z 0); rewrite <- Zlt_Qlt; lia|].
  rewrite Qmult_0_l. change 0%Q with (inject_Z 0). apply zq_le. lia.
Qed.

Lemma la_core : forall fuel slow (m : nat) ts, Forall la_task ts -> n_la fuel slow (Z.of_nat m) ts false = Some true ->
  sgedf_schedulable (map en ts) (susp_of ts) m.
Proof.
  intros fuel slow m ts Hw Ht.
  assert (Hwi : forall i, (i < length ts)%nat -> la_task (nth i ts dnt)) by (intros; apply Forall_nth_lt; assumption).
  assert (Hwe : Forall wf_etask (map en ts)).
  { rewrite Forall_map. eapply Forall_impl; [|exact Hw]. intros t [T1 [T2 [T3 [T4 T5]]]]. unfold wf_etask, en; cbn. lia. }
  apply no_first_susp_miss; [assumption| |].
  { intros i Hi. rewrite map_length in Hi. rewrite et_en. cbn. destruct (Hwi i Hi) as [T1 [T2 [T3 [T4 T5]]]]. lia. }
  intros s sc tot su Hl Hv Hs Hp d IH k q Hk Hdue Hmiss.
  pose proof Hk as Hk'. rewrite map_length in Hk'. set (tk := nth k ts dnt) in *.
  unfold n_la in Ht. cbn [andb] in Ht. destruct (Qle_bool (inject_Z (Z.of_nat m) - ns_util ts) 0) eqn:EU; [discriminate|].
  assert (Eus : (ns_util ts == qsum (map n_util ts))%Q) by (unfold ns_util; rewrite fold_qsum; ring).
  assert (HU : (0 < inject_Z (Z.of_nat m) - ns_util ts)%Q) by (apply Qnot_le_lt; intros X; apply Qle_bool_iff in X; congruence).
  assert (Hm : (1 <= m)%nat).
  { destruct m; [exfalso|lia]. pose proof (util_nonneg ts Hw). rewrite <- Eus in H. cbn in HU. change (inject_Z 0) with 0%Q in HU. lra. }
  destruct (Hwi k Hk') as [K1 [K2 [K3 [K4 K5]]]]. fold tk in K1, K2, K3, K4, K5.
  assert (HDe : forall i, (i < length (map en ts))%nat -> 1 <= e_deadline (et (map en ts) i) <= e_period (et (map en ts) i)).
  { intros i Hi. rewrite map_length in Hi. rewrite et_en. cbn. destruct (Hwi i Hi) as [T1 [T2 [T3 [T4 T5]]]]. lia. }
  assert (HCe : forall i, (i < length (map en ts))%nat -> 0 <= e_cost (et (map en ts) i) /\ 0 <= susp_of ts i /\ e_cost (et (map en ts) i) + susp_of ts i <= e_deadline (et (map en ts) i)).
  { intros i Hi. rewrite map_length in Hi. rewrite et_en. cbn. unfold susp_of. destruct (Hwi i Hi) as [T1 [T2 [T3 [T4 T5]]]]. lia. }
  destruct (scarry_core (map en ts) m s sc Hwe Hl Hv (susp_of ts) tot su Hs Hp Hm HDe HCe d IH k q Hk Hdue Hmiss) as [Hst [A [car [w [HA [HZ [Hcar [Hsum Hw']]]]]]]].
  set (st := Z.of_nat (tot k q)) in *. unfold susp_of at 1 in Hst. fold tk in Hst.
  rewrite map_length in Hcar, Hsum. rewrite et_en in Hsum. cbn [en e_cost e_deadline] in Hsum. fold tk in Hsum.
  destruct HA as [HA0 [i0 [j0 [Hi0 [Hj0 EA]]]]]. rewrite map_length in Hi0. rewrite !et_en in EA. cbn [en e_deadline e_period] in EA. fold tk in EA.
  set (L := A + n_deadline tk) in *. assert (HL : 1 <= L) by (unfold L; lia).
  set (n := length ts) in *.
  assert (Hwi' : forall i, (i < n)%nat ->
    (if Nat.eqb i k then w i <= A else w i <= L - n_wcet tk - st + 1) /\
    (w i <= wl (n_wcet (nth i ts dnt)) (n_period (nth i ts dnt)) L - (if Nat.eqb i k then n_wcet tk else 0)) /\
    (car i = false -> n_susp (nth i ts dnt) = 0 -> exists N, 0 <= N /\ (N = 0 \/ (N - 1) * n_period (nth i ts dnt) + n_deadline (nth i ts dnt) <= L) /\
       w i <= N * n_wcet (nth i ts dnt) - (if Nat.eqb i k then n_wcet tk else 0))).
  { intros i Hi. destruct (Hw' i ltac:(rewrite map_length; assumption)) as [G1 [G2 G3]]. rewrite ?(et_en ts i), ?(et_en ts k) in G1; rewrite ?(et_en ts i), ?(et_en ts k) in G2; rewrite ?(et_en ts i), ?(et_en ts k) in G3.
    cbn [en e_cost e_deadline e_period] in G1, G2, G3. fold tk in G1, G2, G3. fold st in G1. fold L in G1, G2, G3.
    split; [exact G1|]. split; [exact G2|]. intros E E2. destruct (G3 E E2) as [N [N1 [N2 [N3 N4]]]]. exists N. tauto. }
  clear Hw'.
  assert (Hsusp : la_suspension fuel (slow k st) (Z.of_nat m) ts k tk st = Some true).
  { apply (la_loop_true _ _ _ _ _ Ht). apply in_flat_map. exists (k, tk). split; [apply indexed_in; apply nth_error_nth'; assumption|].
    cbn [snd]. apply in_map_iff. exists st. split; [reflexivity|]. unfold la_suspensions. apply in_map_iff. exists (tot k q). split; [reflexivity|]. apply in_seq. unfold st in Hst. lia. }
  unfold la_suspension in Hsusp. set (B := la_max_point (Z.of_nat m) ts tk st) in *.
  assert (Hpp : Forall (fun t => 0 < n_period t) ts) by (eapply Forall_impl; [|exact Hw]; intros t [T1 [T2 [T3 [T4 T5]]]]; lia).
  assert (Hne : ts <> []) by (intros ->; cbn in Hk'; lia).
  assert (Hpok : pok (points_init ts tk B)) by (apply points_init_ok; assumption).
  destruct (Z.le_gt_cases A B) as [Le|Gt].
  - (* the point is tested *)
    assert (Hchk : la_interval (Z.of_nat m) ts k tk st A = true).
    { apply (la_points_true _ _ _ _ _ Hpok) with (a := A) in Hsusp; [assumption| | |exact Le].
      - intros a Ha Ea _. exfalso. cbn [points_init p_last] in Ea. subst a.
        destruct Ha as [c [pi [Hin [j [Hj E]]]]]. cbn [points_init p_queue] in Hin. apply in_map_iff in Hin. destruct Hin as [t [Et Hint]].
        rewrite Forall_forall in Hpp. specialize (Hpp t Hint). unfold dpt_init in Et. injection Et as <- <-.
        destruct (Z.ltb_spec (n_deadline t - n_deadline tk) 0); [pose proof (Z.mod_pos_bound (n_deadline t - n_deadline tk) (n_period t) Hpp); nia|nia].
      - replace A with (n_deadline (nth i0 ts dnt) - n_deadline tk + j0 * n_period (nth i0 ts dnt)) by lia.
        apply points_init_ahead; [apply nth_In; assumption|assumption|lia|assumption]. }
    unfold la_interval in Hchk. apply Qle_bool_iff in Hchk.
    set (F1 := fun i => la_no_carry (Nat.eqb i k) (nth i ts dnt) tk A st). set (F2 := fun i => la_carry_in (Nat.eqb i k) (nth i ts dnt) tk A st).
    rewrite nindexed_seq, !map_map in Hchk. cbn [fst snd] in Hchk. fold n in Hchk.
    set (G := fun i => if n_suspending (nth i ts dnt) then Z.max (F1 i) (F2 i) else F1 i).
    set (DD := fun i => if n_suspending (nth i ts dnt) then 0 else F2 i - F1 i).
    match type of Hchk with (inject_Z (zsum ?a) + topsum ?b _ _ <= _)%Q => change a with (map G (seq 0 n)) in Hchk; change b with (map DD (seq 0 n)) in Hchk end.
    assert (H12 : forall i, (i < n)%nat -> F1 i <= F2 i).
    { intros i Hi. unfold F1, F2, la_no_carry, la_carry_in. fold L. destruct (Hwi i Hi) as [T1 [T2 [T3 [T4 T5]]]]. rewrite K2, T2, !Z.add_0_r.
      destruct (Nat.eqb_spec i k) as [->|Ne].
      - fold tk. rewrite la_delta_wl by lia. pose proof (bound_demand_wl tk L ltac:(lia) ltac:(lia) ltac:(lia) ltac:(lia)). lia.
      - rewrite la_delta_wl by lia. pose proof (bound_demand_wl (nth i ts dnt) L ltac:(lia) ltac:(lia) ltac:(lia) ltac:(lia)). lia. }
    assert (HwF : forall i, (i < n)%nat -> w i <= G i + b2z (car i) * DD i).
    { intros i Hi. destruct (Hwi' i Hi) as [G1 [G2 G3]]. destruct (Hwi i Hi) as [T1 [T2 [T3 [T4 T5]]]].
      assert (WF2 : w i <= F2 i).
      { unfold F2, la_carry_in. fold L. rewrite K2, T2, !Z.add_0_r. destruct (Nat.eqb_spec i k) as [->|Ne]; fold tk in G1, G2, T1, T2, T3, T4, T5 |- *; rewrite la_delta_wl by lia; unfold L in *; lia. }
      unfold G, DD, n_suspending. destruct (Z.ltb_spec 0 (n_susp (nth i ts dnt))) as [Sp|Sp]; [lia|].
      destruct (car i) eqn:Ec; cbn [b2z]; [lia|]. destruct (G3 eq_refl ltac:(lia)) as [N [N1 [N2 N3]]].
      pose proof (bound_demand_jobs (nth i ts dnt) L N ltac:(lia) ltac:(lia) N1 N2) as X.
      enough (w i <= F1 i) by lia. unfold F1, la_no_carry. fold L. rewrite K2, !Z.add_0_r. destruct (Nat.eqb_spec i k) as [->|Ne]; fold tk in N2, N3, X |- *; unfold L in *; lia. }
    assert (S1 : sumf w n <= sumf G n + sumf (fun i => b2z (car i) * DD i) n) by (rewrite <- sumf_add; apply sumf_le; assumption).
    assert (S2 : (inject_Z (sumf (fun i => (b2z (car i) * DD i)%Z) n) <= topsum (map DD (seq 0 n)) inject_Z (Z.to_nat (Z.of_nat m - 1)))%Q).
    { apply topsum_idx; [|lia]. intros i Hi. unfold DD. specialize (H12 i Hi). destruct (n_suspending _); lia. }
    assert (E1 : zsum (map G (seq 0 n)) = sumf G n) by (rewrite sumf_seq; reflexivity).
    rewrite E1 in Hchk. rewrite K2, Z.add_0_r in Hchk. fold L in Hchk.
    assert (X : (inject_Z (Z.of_nat m * (L - n_wcet tk - st + 1)) <= inject_Z (Z.of_nat m * (L - n_wcet tk - st)))%Q).
    { eapply Qle_trans; [|exact Hchk]. eapply Qle_trans; [apply zq_le; exact Hsum|]. eapply Qle_trans; [apply zq_le; exact S1|].
      rewrite inject_Z_plus. apply Qplus_le_compat; [apply Qle_refl|exact S2]. }
    rewrite <- Zle_Qle in X. lia.
  - (* beyond the bound *)
    assert (HB : B <= A) by lia. unfold B, la_max_point in HB. apply round_up_ge in HB. rewrite K2 in HB.
    set (M := inject_Z (Z.of_nat m)) in *. set (U := ns_util ts) in *.
    assert (Etp : (fold_left (fun x t => x + inject_Z (n_wcet t) + n_util t * inject_Z (n_tardiness t)) ts 0 == qsum (map (fun t => inject_Z (n_wcet t)) ts))%Q).
    { assert (Gf : forall l a, Forall la_task l -> (fold_left (fun x t => x + inject_Z (n_wcet t) + n_util t * inject_Z (n_tardiness t)) l a == a + qsum (map (fun t => inject_Z (n_wcet t)) l))%Q).
      { induction l as [|t l IHl]; intros a Hl0; cbn; [ring|]. inversion Hl0 as [|? ? [T1 [T2 _]] Hl1]; subst. rewrite (IHl _ Hl1), T2. unfold qsum. change (inject_Z 0) with 0%Q. ring. }
      rewrite Gf by assumption. ring. }
    rewrite Etp in HB. set (CS := qsum (map (fun t => inject_Z (n_wcet t)) ts)) in *.
    assert (HB2 : (M * inject_Z (n_wcet tk + st) + CS <= inject_Z A * (M - U))%Q).
    { apply (Qmult_le_compat_r _ _ (M - U)) in HB; [|lra]. eapply Qle_trans; [|exact HB]. apply Qle_lteq. right. change (inject_Z 0) with 0%Q. field. lra. }
    assert (S1 : (inject_Z (sumf w n) <= U * inject_Z L + CS)%Q).
    { rewrite <- qsum_inject. eapply Qle_trans.
      - apply qsum_le with (g := fun i => (n_util (nth i ts dnt) * inject_Z L + inject_Z (n_wcet (nth i ts dnt)))%Q). intros i Hi. apply in_seq in Hi.
        apply work_util; [apply Hwi; lia|lia|]. left. destruct (Hwi' i ltac:(lia)) as [_ [G2 _]]. destruct (Nat.eqb i k); lia.
      - rewrite qsum_add. apply Qplus_le_compat.
        + rewrite qsum_mul_r. unfold n. rewrite (qsum_nth_n n_util ts), <- Eus. apply Qle_refl.
        + unfold n. rewrite (qsum_nth_n (fun t => inject_Z (n_wcet t)) ts). apply Qle_refl. }
    apply zq_le in Hsum. rewrite inject_Z_mult, inject_Z_plus, !inject_sub in Hsum. fold M in Hsum. change (inject_Z 1) with 1%Q in Hsum.
    rewrite inject_Z_plus in HB2.
    assert (HM : (1 <= M)%Q) by (unfold M; change 1%Q with (inject_Z 1); apply zq_le; lia).
    assert (HAL : (inject_Z A <= inject_Z L)%Q) by (apply zq_le; unfold L; lia).
    assert (X : (inject_Z A * (M - U) <= inject_Z L * (M - U))%Q) by (apply Qmult_le_compat_r; lra).
    lra.
Qed.
