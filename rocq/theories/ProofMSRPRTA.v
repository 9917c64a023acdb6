(** The bounds of msrp.cpp under fixed priorities, and the response-time analysis with them. *)
From Coq Require Import NArith ZArith List Bool Lia Arith Sorted.
From Verif Require Import Base ModelTasks ModelFP ModelLocking ModelMSRP ModelMSRPFP SpecLocking SpecSpinFP SpecSpinEDF SpecMSRPFP ProofLocking ProofSpin ProofFP ProofMSRP.
Import ListNotations.
Open Scope N_scope.

Definition noB := BB inter0 inter0 inter0 inter0 inter0.

Lemma bounds_nth info n t : wf_info info -> In t info -> (ti_cluster t < n)%nat ->
  i_len (bb_remote (nth (ti_id t) (msrp_bounds info n) noB)) = i_len (fst (msrp_remote_bound t (split_by_cluster info n) (globals info) n)) /\
  i_len (bb_local (nth (ti_id t) (msrp_bounds info n) noB)) =
    N.max (i_len (msrp_local_bound t (nth (ti_cluster t) (split_by_cluster info n) []) (get_priority_ceilings info) (globals info) 0))
      (fold_left (fun m tx => if negb (Nat.eqb (ti_cluster tx) (ti_cluster t)) || (ti_prio tx <? ti_prio t) || Nat.eqb (ti_id t) (ti_id tx)
          then m else N.max m (i_len (np_blocking info (split_by_cluster info n) (globals info) n tx))) info 0).
Proof.
  intros W T C. unfold msrp_bounds. erewrite nth_error_nth; [|apply map_nth_error, wf_id; [exact W|exact T]]. cbn [bb_remote bb_local i_len]. rewrite (proj2 (Nat.ltb_lt _ _) C). split; reflexivity.
Qed.

Lemma local_spec info n t : wf_info info -> (forall t, In t info -> ti_prio t < UNLIMITED) -> (forall t, In t info -> (ti_cluster t < n)%nat) -> (forall t, In t info -> 1 <= ti_deadline t) ->
  distinct_priorities info -> In t info ->
  let B := i_len (bb_local (nth (ti_id t) (msrp_bounds info n) noB)) in
  (forall v, fp_blocker info n t v -> v <= B) /\ (B = 0 \/ fp_blocker info n t B).
Proof.
  intros W PU CL DL DP T B.
  set (npv := fun tx => mx (map (fun q => fifo_wait info n (ti_cluster tx) (q_res q) + q_len q) (filter (fun q => globalb info (q_res q)) (ti_requests tx)))).
  set (npc := fun tx => negb (Nat.eqb (ti_cluster tx) (ti_cluster t)) || (ti_prio tx <? ti_prio t) || Nat.eqb (ti_id t) (ti_id tx)).
  set (loc := fun x q => (ti_prio x <=? ti_prio t) || globalb info (q_res q) || (ti_prio t <? nth (q_res q) (get_priority_ceilings info) UNLIMITED) || (ti_deadline x <=? 0)).
  assert (E : B = N.max (mx (map (fun x => mx (map q_len (filter (fun q => negb (loc x q)) (ti_requests x)))) (in_cluster (ti_cluster t) info))) (mx (map npv (filter (fun tx => negb (npc tx)) info)))).
  { unfold B. rewrite (proj2 (bounds_nth info n t W T (CL t T))). f_equal.
    - unfold msrp_local_bound. rewrite clusters_nth. set (lm := fold_left _ (in_cluster (ti_cluster t) info) 0).
      assert (LM : lm = mx (map (fun x => mx (map q_len (filter (fun q => negb (loc x q)) (ti_requests x)))) (in_cluster (ti_cluster t) info))).
      { unfold lm. rewrite (nested_max (in_cluster (ti_cluster t) info) (fun x q => (ti_prio x <=? ti_prio t) || is_global (globals info) (q_res q) || (ti_prio t <? nth (q_res q) (get_priority_ceilings info) UNLIMITED) || (ti_deadline x <=? 0))).
        rewrite N.max_0_l. f_equal. apply map_ext. intros x. f_equal. f_equal. apply filter_ext. intros q. unfold loc. rewrite is_global_spec. reflexivity. }
      rewrite <- LM. destruct (N.ltb_spec 0 lm); cbn [i_len inter0]; lia.
    - rewrite (fold_mx _ (fun tx => if negb (npc tx) then npv tx else 0)); [rewrite mx_filter; apply N.max_0_l|].
      intros m tx Hx. unfold npc, np_blocking. rewrite (proj2 (Nat.ltb_lt _ _) (CL tx Hx)). rewrite (proj2 (remote_spec info n tx)). match goal with |- (if ?b then _ else _) = _ => destruct b end; cbn [negb]; [lia|reflexivity]. }
  split.
  - intros v [x [q [X1 [X2 [X3 [X4 V]]]]]]. rewrite E. destruct V as [[G ->]|[G [-> [u [U P2]]]]].
    + etransitivity; [|apply N.le_max_r]. transitivity (npv x); [|apply mx_in, in_map, filter_In; split; [exact X1|]].
      * unfold npv. apply mx_in, in_map_iff. exists q. rewrite X2. split; [reflexivity|]. apply filter_In. split; [exact X4|apply globalb_spec; exact G].
      * unfold npc. rewrite X2, Nat.eqb_refl, (proj2 (N.ltb_ge _ _)) by lia. cbn [negb orb].
        destruct (Nat.eqb_spec (ti_id t) (ti_id x)) as [I|I]; [|reflexivity]. pose proof (wf_id info t W T) as A. pose proof (wf_id info x W X1) as A2. rewrite I in A. rewrite A in A2. inversion A2. subst. lia.
    + etransitivity; [|apply N.le_max_l]. transitivity (mx (map q_len (filter (fun q => negb (loc x q)) (ti_requests x)))).
      * apply mx_in, in_map, filter_In. split; [exact X4|]. unfold loc. rewrite (proj2 (N.leb_gt _ _)) by lia. cbn [orb].
        destruct (globalb info (q_res q)) eqn:GB; [exfalso; apply G, globalb_spec; exact GB|]. cbn [orb].
        rewrite (proj2 (N.ltb_ge _ _)) by (apply (ceilings_spec info (q_res q) (ti_prio t) (PU t T)); exists u; split; assumption). cbn [orb]. rewrite (proj2 (N.leb_gt _ _)) by (pose proof (DL x X1); lia). reflexivity.
      * apply mx_in. apply in_map_iff. exists x. split; [reflexivity|]. apply filter_In. split; [exact X1|]. apply Nat.eqb_eq. exact X2.
  - rewrite E.
    destruct (N.max_spec (mx (map (fun x => mx (map q_len (filter (fun q => negb (loc x q)) (ti_requests x)))) (in_cluster (ti_cluster t) info))) (mx (map npv (filter (fun tx => negb (npc tx)) info)))) as [[_ ->]|[_ ->]].
    + match goal with |- mx ?l = 0 \/ _ => destruct (mx_att l) as [Z|I]; [left; exact Z|] end. apply in_map_iff in I. destruct I as [x [V X1]]. rewrite <- V. apply filter_In in X1. destruct X1 as [X1 X2].
      unfold npc in X2. apply negb_true_iff in X2. apply orb_false_iff in X2. destruct X2 as [X2 X4]. apply orb_false_iff in X2. destruct X2 as [X2 X3].
      apply negb_false_iff, Nat.eqb_eq in X2. apply N.ltb_ge in X3. apply Nat.eqb_neq in X4. unfold npv.
      match goal with |- mx ?l = 0 \/ _ => destruct (mx_att l) as [Z|I]; [left; exact Z|] end. apply in_map_iff in I. destruct I as [q [V2 Q]]. apply filter_In in Q. destruct Q as [Q1 Q2]. rewrite <- V2.
      right. exists x, q. split; [exact X1|]. split; [exact X2|]. split; [|split; [exact Q1|]].
      * destruct (N.eq_dec (ti_prio x) (ti_prio t)) as [EP|NP]; [exfalso; apply X4; f_equal; symmetry; apply DP; auto|lia].
      * left. split; [apply globalb_spec; exact Q2|]. rewrite X2. reflexivity.
    + match goal with |- mx ?l = 0 \/ _ => destruct (mx_att l) as [Z|I]; [left; exact Z|] end. apply in_map_iff in I. destruct I as [x [V X1]]. rewrite <- V.
      destruct (mx_att (map q_len (filter (fun q => negb (loc x q)) (ti_requests x)))) as [Z|I]; [left; exact Z|]. apply in_map_iff in I. destruct I as [q [V2 Q]]. rewrite <- V2.
      apply filter_In in Q. destruct Q as [Q1 Q2]. unfold loc in Q2. apply negb_true_iff in Q2. apply orb_false_iff in Q2. destruct Q2 as [Q2 Q5]. apply orb_false_iff in Q2. destruct Q2 as [Q2 Q4]. apply orb_false_iff in Q2. destruct Q2 as [Q2 Q3].
      apply N.leb_gt in Q2. apply N.ltb_ge in Q4. apply filter_In in X1. destruct X1 as [X1 X2]. apply Nat.eqb_eq in X2.
      apply (ceilings_spec info (q_res q) (ti_prio t) (PU t T)) in Q4. right. exists x, q. split; [exact X1|]. split; [exact X2|]. split; [exact Q2|]. split; [exact Q1|].
      right. split; [|split; [reflexivity|exact Q4]]. intros G. apply globalb_spec in G. congruence.
Qed.

Lemma remote_inflated info n t : wf_info info -> In t info -> (ti_cluster t < n)%nat -> ti_cost t + i_len (bb_remote (nth (ti_id t) (msrp_bounds info n) noB)) = inflated info n t.
Proof. intros W T C. rewrite (proj1 (bounds_nth info n t W T C)), (proj1 (remote_spec info n t)). reflexivity. Qed.

Open Scope Z_scope.

(** The tasks of processor [c] in the order of decreasing priority. *)
Definition partition_of (info : list taskinfo) (c : nat) (l : list taskinfo) : Prop :=
  (forall t, In t l <-> In t info /\ ti_cluster t = c) /\ StronglySorted (fun a b => (ti_prio a < ti_prio b)%N) l.

Lemma cdiv_ceil a b : 0 < b -> cdiv a b = (a + b - 1) / b.
Proof. intros H. apply cdiv_unique; [exact H|]. pose proof (Z.div_mod (a + b - 1) b ltac:(lia)). pose proof (Z.mod_pos_bound (a + b - 1) b H). nia. Qed.

Lemma zsum_incl {A} (f : A -> Z) (l l' : list A) : (forall a, 0 <= f a) -> NoDup l -> (forall a, In a l -> In a l') -> fold_right Z.add 0 (map f l) <= fold_right Z.add 0 (map f l').
Proof.
  intros P. revert l'. induction l as [|a l IH]; intros l' N I.
  - cbn. clear -P. induction l' as [|x r IH]; cbn; [lia|]. specialize (P x). lia.
  - inversion N as [|? ? NI ND]; subst. destruct (in_split a l' (I a (or_introl eq_refl))) as [l1 [l2 ->]].
    assert (X : forall m1 m2, fold_right Z.add 0 (map f (m1 ++ a :: m2)) = f a + fold_right Z.add 0 (map f (m1 ++ m2))) by (clear; induction m1 as [|x r IH]; intros m2; cbn [app map fold_right]; [reflexivity|rewrite IH; lia]).
    rewrite X. cbn [map fold_right]. apply Z.add_le_mono_l. apply IH; [exact ND|]. intros x Hx. specialize (I x (or_intror Hx)). apply in_app_iff in I. apply in_app_iff. destruct I as [I|[<-|I]]; [left; exact I|contradiction|right; exact I].
Qed.

Lemma sorted_firstn l : StronglySorted (fun a b => (ti_prio a < ti_prio b)%N) l -> forall i t h, nth_error l i = Some t -> In h l -> (ti_prio h < ti_prio t)%N -> In h (firstn i l).
Proof.
  induction 1 as [|a l S IH F]; intros i t h HI HH HP; [destruct HH|]. rewrite Forall_forall in F. destruct i as [|i]; cbn in HI.
  - injection HI as ->. destruct HH as [->|HH]; [lia|]. specialize (F h HH). lia.
  - cbn [firstn]. destruct HH as [->|HH]; [left; reflexivity|]. right. apply (IH i t h HI HH HP).
Qed.

Lemma higher_nodup info t : wf_info info -> NoDup (higher info t).
Proof. intros [W _]. apply NoDup_filter. apply (NoDup_map_inv ti_id). rewrite W. apply seq_NoDup. Qed.

Lemma rta_criterion info n c l fuel no_cpus verdict res i t f r : wf_info info -> (forall t, In t info -> (ti_prio t < UNLIMITED)%N) -> (forall t, In t info -> (ti_cluster t < n)%nat) ->
  (forall t, In t info -> (1 <= ti_deadline t)%N) -> distinct_priorities info -> partition_of info c l ->
  bound_response_times fuel no_cpus (map (msrp_task info n) l) = Accepted (verdict, res) -> nth_error l i = Some t -> nth_error res i = Some (f, r) ->
  fp_criterion info n t r /\ r <= Z.of_N (ti_deadline t).
Proof.
  intros W PU CL DL DP [PI PS] H HI HR.
  assert (H1 : no_cpus = 1 /\ Forall (fun t => t_deadline (fp_task t) <= t_period (fp_task t)) (map (msrp_task info n) l)).
  { destruct verdict; [apply (bound_constrained fuel no_cpus _ res H)|]. unfold bound_response_times in H. destruct ((no_cpus =? 1) && only_constrained_deadlines (map fp_task (map (msrp_task info n) l))) eqn:X; cbn [negb] in H; [|injection H as <-; destruct i; discriminate].
    apply andb_true_iff in X. destruct X as [X1 X2]. apply Z.eqb_eq in X1. split; [exact X1|]. apply Forall_forall. intros x Hx. unfold only_constrained_deadlines in X2. rewrite forallb_forall in X2. specialize (X2 (fp_task x) (in_map fp_task _ _ Hx)). apply Z.leb_le in X2. exact X2. }
  destruct H1 as [-> CD]. pose proof (bound_spec fuel _ verdict res CD H) as FA. pose proof FA as [FL [FN _]]. destruct (FN i (f, r) HR) as [FT FR]. cbn [fst snd] in *.
  rewrite (map_nth_error _ _ _ HI) in FT. injection FT as <-. assert (TL : In t l) by (eapply nth_error_In; exact HI). destruct (proj1 (PI t) TL) as [TI TC].
  assert (SEL : select_rta (map (msrp_task info n) l) = legacy_rta_jitter_aware).
  { unfold select_rta. assert (U : uses_legacy_blocked_field (map (msrp_task info n) l) = true) by (apply existsb_exists; exists (msrp_task info n t); split; [apply in_map; exact TL|reflexivity]). rewrite U.
    assert (S : has_self_suspensions (map (msrp_task info n) l) = false); [|rewrite S; reflexivity]. destruct (has_self_suspensions _) eqn:S; [|reflexivity]. apply existsb_exists in S. destruct S as [x [X1 X2]]. apply in_map_iff in X1. destruct X1 as [y [<- _]]. discriminate X2. }
  rewrite SEL in FR. unfold legacy_rta_jitter_aware in FR. destruct (gen_accept _ _ _ _ _ _ FR) as [d [-> [D1 [D2 _]]]]. change (get_jitter (msrp_task info n t)) with 0. rewrite Z.add_0_r.
  change (t_deadline (fp_task (msrp_task info n t))) with (Z.of_N (ti_deadline t)) in D1.
  assert (DT : Z.of_N (ti_deadline t) <= Z.of_N (ti_period t)) by (rewrite Forall_forall in CD; apply (CD (msrp_task info n t)), in_map, TL).
  split; [|exact D1]. rewrite rta_demand_eq in D2.
  set (B := i_len (bb_local (nth (ti_id t) (msrp_bounds info n) noB))).
  assert (OWN : get_blocked (msrp_task info n t) + t_cost (fp_task (msrp_task info n t)) = Z.of_N B + Z.of_N (inflated info n t)) by (rewrite <- (remote_inflated info n t W TI (CL t TI)), N2Z.inj_add; reflexivity).
  rewrite OWN in D2.
  assert (LEN : (i < length res)%nat) by (apply nth_error_Some; congruence).
  pose proof (firstn_res _ _ _ _ i FA ltac:(lia)) as FM. rewrite firstn_map in FM.
  set (g := fun h => (d + Z.of_N (ti_period h) - 1) / Z.of_N (ti_period h) * Z.of_N (inflated info n h)).
  assert (PP : forall h, In h info -> 0 < Z.of_N (ti_period h)) by (intros h Hh; pose proof (proj1 (proj2 W h Hh)); lia).
  assert (SUM : Base.zsum (map (fun a => hcost a * cdiv (d + hp_get_jitter a) (hper a)) (firstn i res)) = fold_right Z.add 0 (map g (firstn i l))).
  { assert (FI : forall h, In h (firstn i l) -> In h info) by (intros h Hh; apply PI; rewrite <- (firstn_skipn i l); apply in_or_app; left; exact Hh).
    generalize dependent (firstn i l). generalize (firstn i res). clear -W CL PP. induction l as [|a r IH]; intros [|h m] FM FI; cbn [map] in FM; try discriminate; [reflexivity|]. injection FM as F1 F2. cbn [map Base.zsum fold_right]. rewrite (IH m F2 (fun x Hx => FI x (or_intror Hx))). f_equal.
    unfold hcost, hper, hp_get_jitter, g. rewrite F1. assert (HH : In h info) by (apply FI; left; reflexivity). cbn [msrp_task fp_task t_cost t_period]. change (get_jitter (msrp_task info n h)) with 0. rewrite Z.add_0_r, cdiv_ceil by (apply PP; exact HH).
    rewrite <- (remote_inflated info n h W HH (CL h HH)), N2Z.inj_add. apply Z.mul_comm. }
  rewrite SUM in D2.
  assert (D0 : 0 <= d).
  { destruct (Z.le_gt_cases 0 d) as [X|X]; [exact X|exfalso].
    (* the search starts at a value that is not negative *)
    destruct (gen_accept _ _ _ _ _ _ FR) as [d' [E' [_ [_ LO]]]]. change (get_jitter (msrp_task info n t)) with 0 in E'. rewrite !Z.add_0_r in E'. subst d'.
    assert (HOK : hp_ok hp_get_jitter (firstn i res)). { apply Forall_forall. intros a Ha. assert (X' : In (fst a) (map (msrp_task info n) (firstn i l))) by (rewrite <- FM; apply in_map; exact Ha). apply in_map_iff in X'. destruct X' as [h [E1 E2]].
      assert (HH : In h info) by (apply PI; rewrite <- (firstn_skipn i l); apply in_or_app; left; exact E2). unfold hcost, hper, hp_get_jitter. rewrite <- E1. cbn [msrp_task fp_task t_cost t_period]. specialize (PP h HH). change (get_jitter (msrp_task info n h)) with 0. lia. }
    assert (OW0 : 0 <= get_blocked (msrp_task info n t) + t_cost (fp_task (msrp_task info n t))) by (rewrite OWN; lia).
    pose proof (rta_loop_inv (fun x => start (get_blocked (msrp_task info n t) + t_cost (fp_task (msrp_task info n t))) (firstn i res) <= x) (get_blocked (msrp_task info n t) + t_cost (fp_task (msrp_task info n t))) (firstn i res) hp_get_jitter (t_deadline (fp_task (msrp_task info n t)))
      (fun x Hx => start_le_demand _ _ _ x HOK OW0 Hx) fuel _ (Z.le_refl _)) as INV. rewrite LO in INV.
    assert (S0 : 0 <= start (get_blocked (msrp_task info n t) + t_cost (fp_task (msrp_task info n t))) (firstn i res)).
    { unfold start. rewrite OWN. assert (0 <= Base.zsum (map hcost (firstn i res))); [|lia]. unfold hp_ok in HOK. clear -HOK. induction HOK as [|a r A R IH]; cbn; [lia|]. destruct A. lia. }
    lia. }
  assert (DEM : fp_demand info n t d <= Z.of_N (inflated info n t) + fold_right Z.add 0 (map g (firstn i l))).
  { unfold fp_demand. apply Z.add_le_mono_l.
    assert (X : forall h, In h (higher info t) -> In h (firstn i l)).
    { intros h Hh. apply filter_In in Hh. destruct Hh as [H1 H2]. apply andb_true_iff in H2. destruct H2 as [H2 H3]. apply Nat.eqb_eq in H2. apply N.ltb_lt in H3. apply (sorted_firstn l PS i t h HI); [apply PI; split; [exact H1|congruence]|exact H3]. }
    assert (G0 : forall h, In h info -> 0 <= g h) by (intros h Hh; unfold g; specialize (PP h Hh); assert (0 <= (d + Z.of_N (ti_period h) - 1) / Z.of_N (ti_period h)) by (apply Z.div_pos; lia); nia).
    set (g' := fun h => Z.max 0 (g h)). assert (EQ : forall m, (forall h, In h m -> In h info) -> map g m = map g' m).
    { intros m Hm. apply map_ext_in. intros h Hh. unfold g'. specialize (G0 h (Hm h Hh)). lia. }
    fold g. rewrite (EQ (higher info t)) by (intros h Hh; apply filter_In in Hh; apply Hh). rewrite (EQ (firstn i l)) by (intros h Hh; apply PI; rewrite <- (firstn_skipn i l); apply in_or_app; left; exact Hh).
    apply zsum_incl; [intros; unfold g'; lia|apply higher_nodup; exact W|exact X]. }
  destruct (local_spec info n t W PU CL DL DP TI) as [LB _]. fold B in LB. split; [lia|split; [lia|]]. intros v V. specialize (LB v V). lia.
Qed.
