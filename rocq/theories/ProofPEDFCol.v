(** The program over columns has the same solutions. *)
From Coq Require Import NArith ZArith QArith Qround List Bool Lia Lqa Arith.
From Verif Require Base.
From Verif Require Import ModelLocking ModelLP ModelLPSpin ModelPEDF SpecLocking SpecLP SpecSpinFP SpecSpinEDF SpecPEDF ProofLocking ProofLockingMono ProofLP ProofLPSpin ProofSpin ProofMSRPTest ProofPEDFVec ProofPEDFLP.
Import ListNotations ModelPEDF.
Open Scope Z_scope.

(** ** Keys *)

Lemma key_inj a b : svar_asserts a -> svar_asserts b -> svar_key a = svar_key b -> a = b.
Proof.
  destruct a as [a1 a2 a3], b as [b1 b2 b3]. unfold svar_asserts, svar_key. cbn [sv_task sv_res sv_type]. change (2 ^ 20)%N with 1048576%N. change (2 ^ 40)%N with 1099511627776%N. intros [A1 A2] [B1 B2] E.
  assert (C : stype_code a3 = stype_code b3) by nia. assert (R : N.of_nat a2 = N.of_nat b2) by nia. assert (T : N.of_nat a1 = N.of_nat b1) by nia.
  apply Nat2N.inj in R, T. subst. f_equal. destruct a3, b3; cbn in C; congruence.
Qed.

Lemma mapper_keeps vs : forall m k i, position k m = Some i -> position k (fold_left (fun m v => snd (var_for_key (svar_key v) m)) vs m) = Some i.
Proof.
  induction vs as [|v vs IH]; intros m k i P; cbn [fold_left]; [exact P|]. apply IH. unfold var_for_key. destruct (position (svar_key v) m); [exact P|]. cbn [snd]. apply position_app. exact P.
Qed.
Lemma mapper_in vs : forall m v, In v vs -> exists i, position (svar_key v) (fold_left (fun m v => snd (var_for_key (svar_key v) m)) vs m) = Some i.
Proof.
  induction vs as [|w vs IH]; intros m v I; [destruct I|]. cbn [fold_left]. destruct I as [->|I]; [|apply IH; exact I].
  unfold var_for_key at 2. destruct (position (svar_key v) m) as [i|] eqn:P; cbn [snd]; [exists i|exists (length m)]; apply mapper_keeps; [exact P|apply position_new; exact P].
Qed.
Lemma index_inj vs a b : In a vs -> In b vs -> svar_asserts a -> svar_asserts b -> svar_index (svar_mapper vs) a = svar_index (svar_mapper vs) b -> a = b.
Proof.
  intros A B RA RB E. destruct (mapper_in vs [] a A) as [i P]. destruct (mapper_in vs [] b B) as [j P']. fold (svar_mapper vs) in P, P'. unfold svar_index in E. rewrite P, P' in E. subst j. apply (key_inj a b RA RB).
  apply position_some in P, P'. congruence.
Qed.

(** ** Solutions *)

Lemma columns_feasible (lp : lprog svar) (free : list svar) (y : svar -> Q) : (forall v, In v (lp_vars lp ++ free) -> svar_asserts v) -> bounded_feasible lp free y ->
  let m := svar_mapper (lp_vars lp ++ free) in
  exists z, bounded_feasible (rename (svar_index m) lp) (map (svar_index m) free) z /\ (evaluate z (lp_obj (rename (svar_index m) lp)) == evaluate y (lp_obj lp))%Q.
Proof.
  intros R F m. set (vs := lp_vars lp ++ free) in *. set (f := svar_index m).
  set (z := fun w : nat => match find (fun v => Nat.eqb (f v) w) vs with Some v => y v | None => 0%Q end). exists z.
  assert (G : forall v, In v vs -> z (f v) = y v).
  { intros v V. unfold z. destruct (find (fun v0 => Nat.eqb (f v0) (f v)) vs) as [w|] eqn:W.
    - apply find_some in W. destruct W as [W1 W2]. apply Nat.eqb_eq in W2. f_equal. apply (index_inj vs w v W1 V (R w W1) (R v V) W2).
    - pose proof (find_none _ _ W v V) as N. cbn beta in N. rewrite Nat.eqb_refl in N. discriminate. }
  assert (EV : forall e, (forall v, In v (map snd e) -> In v (lp_vars lp)) -> (evaluate z (rename_exp f e) == evaluate y e)%Q).
  { intros e I. rewrite evaluate_rename. apply evaluate_ext. intros v V. rewrite G; [reflexivity|]. unfold vs. apply in_or_app. left. apply I. exact V. }
  destruct F as [F1 F2 F3 F4 F5]. split; [constructor|].
  - intros w. unfold z. destruct (find _ vs); [apply F1|apply Qle_refl].
  - intros w NI. unfold z. destruct (find (fun v => Nat.eqb (f v) w) vs) as [v|] eqn:W; [|discriminate]. apply find_some in W. destruct W as [_ W]. apply Nat.eqb_eq in W. apply F2. intros V. apply NI. rewrite <- W. apply in_map. exact V.
  - intros w I. cbn in I. apply in_map_iff in I. destruct I as [v [<- I]]. rewrite G; [apply F3; exact I|]. unfold vs, lp_vars. rewrite !in_app_iff. auto.
  - intros e b I. cbn in I. apply in_map_iff in I. destruct I as [[e0 b0] [E I]]. cbn in E. injection E as <- <-. rewrite (EV e0 (fun v Hv => in_lp_vars_eq lp e0 b0 v I Hv)). apply F4; exact I.
  - intros e b I. cbn in I. apply in_map_iff in I. destruct I as [[e0 b0] [E I]]. cbn in E. injection E as <- <-. rewrite (EV e0 (fun v Hv => in_lp_vars_ineq lp e0 b0 v I Hv)). apply F5; exact I.
  - cbn [rename lp_obj]. apply EV. intros v V. unfold lp_vars. rewrite !in_app_iff. right. right. right. exact V.
Qed.

(** ** The variables of the program *)

Section Vars.
Variable P : svar -> Prop.
Definition vok (lp : lprog svar) : Prop := forall v, In v (lp_vars lp) -> P v.
Definition eok (e : linexp svar) : Prop := forall v, In v (map snd e) -> P v.

Lemma eok_var v : P v -> eok (add_var v). Proof. intros H w [<-|[]]. exact H. Qed.
Lemma eok_sub v : P v -> eok (sub_var v). Proof. intros H w [<-|[]]. exact H. Qed.
Lemma eok_app a b : eok a -> eok b -> eok (a ++ b). Proof. intros A B w W. rewrite map_app in W. apply in_app_or in W. destruct W; auto. Qed.
Lemma eok_concat {A} (f : A -> linexp svar) l : (forall a, In a l -> eok (f a)) -> eok (concat (map f l)).
Proof. induction l as [|a l IH]; intros H; cbn [map concat]; [intros v []|]. apply eok_app; [apply H; left; reflexivity|apply IH; intros; apply H; right; assumption]. Qed.

Lemma vok_iff lp : vok lp <-> (forall e b, In (e, b) (lp_eqs lp) -> eok e) /\ (forall e b, In (e, b) (lp_ineqs lp) -> eok e) /\ (forall v, In v (lp_bins lp) -> P v) /\ eok (lp_obj lp).
Proof.
  split.
  - intros H. split; [intros e b I v V; apply H; eapply in_lp_vars_eq; eassumption|split; [intros e b I v V; apply H; eapply in_lp_vars_ineq; eassumption|split]].
    + intros v V. apply H. unfold lp_vars. rewrite !in_app_iff. auto.
    + intros v V. apply H. unfold lp_vars. rewrite !in_app_iff. auto.
  - intros [A [B [C D]]] v V. unfold lp_vars in V. rewrite !in_app_iff in V. destruct V as [V|[V|[V|V]]]; [| |apply C; exact V|apply D; exact V].
    + apply in_map_iff in V. destruct V as [x [<- V]]. apply in_concat in V. destruct V as [e [V1 V2]]. apply in_map_iff in V1. destruct V1 as [[e' b] [E V1]]. cbn in E. subst e'. apply (A e b V1). apply in_map. exact V2.
    + apply in_map_iff in V. destruct V as [x [<- V]]. apply in_concat in V. destruct V as [e [V1 V2]]. apply in_map_iff in V1. destruct V1 as [[e' b] [E V1]]. cbn in E. subst e'. apply (B e b V1). apply in_map. exact V2.
Qed.
Lemma vok_empty : vok lp_empty. Proof. intros v []. Qed.
Lemma vok_ineq e b lp : vok lp -> eok e -> vok (add_inequality e b lp).
Proof.
  intros V E. unfold add_inequality. destruct (has_terms e); [|exact V]. apply vok_iff in V. destruct V as [A [B [C D]]]. apply vok_iff. cbn. repeat split; auto.
  intros e0 b0 I. apply in_app_or in I. destruct I as [I|[I|[]]]; [eapply B; exact I|]. injection I as <- <-. exact E.
Qed.
Lemma vok_bin v lp : vok lp -> P v -> vok (declare_variable_binary v lp).
Proof.
  intros V E. apply vok_iff in V. destruct V as [A [B [C D]]]. apply vok_iff. cbn. repeat split; auto. intros w I. apply in_app_or in I. destruct I as [I|[<-|[]]]; auto.
Qed.
Lemma vok_obj e lp : vok lp -> eok e -> vok (add_objective e lp).
Proof. intros V E. apply vok_iff in V. destruct V as [A [B [C D]]]. apply vok_iff. cbn. repeat split; auto. apply eok_app; assumption. Qed.
Lemma vok_fold {A} (f : lprog svar -> A -> lprog svar) l : (forall lp a, In a l -> vok lp -> vok (f lp a)) -> forall lp, vok lp -> vok (fold_left f l lp).
Proof. induction l as [|a l IH]; intros H lp V; cbn [fold_left]; [exact V|]. apply IH; [intros; apply H; [right|]; assumption|]. apply H; [left; reflexivity|exact V]. Qed.
End Vars.

Lemma lp_vars_ok (P : svar -> Prop) info u m t c :
  (forall x q, In x info -> In q (get_all_resources info) -> P (spin (ti_id x) q) /\ P (arrival (ti_id x) q)) -> (forall q, In q (get_all_resources info) -> P (indicator q)) ->
  vok P (pedf_msrp_lp u info m t c).
Proof.
  intros H I. assert (RQ : forall x r, In x info -> In r (ti_requests x) -> In (q_res r) (get_all_resources info)) by (intros x r X R; apply in_all_resources; exists x, r; auto).
  assert (TI : forall k x, In x (tasks_in k info) -> In x info) by (intros k x X; apply filter_In in X; apply X).
  assert (TN : forall k x, In x (tasks_not_in k info) -> In x info) by (intros k x X; apply filter_In in X; apply X).
  assert (DI : forall lp, vok P lp -> vok P (declare_indicators info lp)) by (intros lp V; apply vok_fold; [|exact V]; intros lp' q Q V'; apply vok_bin; auto).
  assert (SI : eok P (sum_indicators info)) by (apply eok_concat; intros q Q; apply eok_var; auto).
  unfold pedf_msrp_lp, spinlocks_lp.
  apply vok_fold; [intros lp k K V; apply vok_fold; [|exact V]; intros lp' q Q V'; apply vok_ineq; [exact V'|]; apply eok_app; [apply eok_concat; intros x X; apply eok_var; apply H; eauto|apply eok_sub; auto]|].
  apply vok_fold; [intros lp x X V; apply vok_fold; [|exact V]; intros lp' q Q V'; apply vok_ineq; [exact V'|]; apply eok_var; apply H; eauto|].
  apply vok_fold; [intros lp k K V; apply vok_fold; [|exact V]; intros lp' q Q V'; apply vok_ineq; [exact V'|]; apply eok_concat; intros x X; apply eok_var; apply H; eauto|].
  apply vok_obj.
  2: { apply eok_concat. intros x X. apply eok_concat. intros q Q. cbv zeta. destruct (0 <? get_request_length x q)%N; [|intros v []]. intros v [<-|[<-|[]]]; cbn [snd]; apply H; assumption. }
  unfold add_exclude_non_conflicting_local_resources.
  assert (V6 : vok P (add_arrival_blocking_max_one_local_request info c (add_no_requests_no_arrival_blocking info t c match m with AC_MODE => add_no_arrival_blocking info (add_joint_upper_bound_remote_requests u info t c (add_no_spin_delay_local_requests info c (add_no_arrival_blocking_dline_inside_interval info t c lp_empty))) | PDC_MODE => add_arrival_blocking_single_resource info (add_joint_upper_bound_remote_requests u info t c (add_no_spin_delay_local_requests info c (add_no_arrival_blocking_dline_inside_interval info t c lp_empty))) end))).
  { apply vok_fold; [intros lp q Q V; apply vok_ineq; [exact V|]; apply eok_app; [apply eok_concat; intros x X; apply eok_var; apply H; eauto|apply eok_sub; auto]|].
    apply vok_fold; [intros lp q Q V; apply vok_ineq; [apply vok_bin; auto|]; apply eok_var; auto|].
    assert (V3 : vok P (add_joint_upper_bound_remote_requests u info t c (add_no_spin_delay_local_requests info c (add_no_arrival_blocking_dline_inside_interval info t c lp_empty)))).
    { apply vok_fold; [intros lp x X V; apply vok_fold; [|exact V]; intros lp' r R V'; apply vok_ineq; [exact V'|]; apply eok_app; apply eok_var; apply H; eauto|].
      apply vok_ineq; [|apply eok_concat; intros x X; apply eok_concat; intros r R; apply eok_var; apply H; eauto].
      apply vok_fold; [|apply vok_empty]. intros lp x X V. apply filter_In in X. apply vok_fold; [|exact V]. intros lp' r R V'. apply vok_ineq; [exact V'|]. apply eok_var. apply H; [tauto|eapply RQ; [apply X|exact R]]. }
    destruct m; apply vok_ineq; auto. }
  cbv zeta. destruct (has_terms _); [|exact V6]. apply vok_ineq; [exact V6|]. apply eok_concat. intros q Q. apply eok_var. apply I. apply filter_In in Q. destruct Q as [Q _]. apply local_resources_spec in Q. destruct Q as [[x [r [X [R <-]]]] _]. eapply RQ; eassumption.
Qed.

Section Solve.
Variables (info : list taskinfo) (n : nat) (solver : lprog nat -> list nat -> Q).
Hypothesis OK : msrp_ok info n.
Hypothesis FIT : numbers_fit info.

Lemma vars_fit u m t c v : In v (lp_vars (pedf_msrp_lp u info m t c) ++ unbounded_vars info) -> svar_asserts v.
Proof.
  assert (A : forall x q, In x info -> In q (get_all_resources info) -> (N.of_nat (ti_id x) < 2 ^ 20 /\ N.of_nat q < 2 ^ 20)%N).
  { intros x q X Q. destruct FIT as [F1 F2]. apply in_all_resources in Q. destruct Q as [y [r [Y [R <-]]]]. split; [|apply (F2 y r Y R)].
    pose proof (proj1 (nth_error_Some info (ti_id x)) ltac:(rewrite (wf_id info x (mo_wf _ _ OK) X); discriminate)). lia. }
  intros V. apply in_app_or in V. destruct V as [V|V].
  - revert v V. apply lp_vars_ok; [intros x q X Q; split; apply (A x q X Q)|]. intros q Q. apply in_all_resources in Q as Q'. destruct Q' as [y [r [Y _]]]. split; [reflexivity|apply (A y q Y Q)].
  - unfold unbounded_vars in V. apply in_concat in V. destruct V as [l [L V]]. apply in_map_iff in L. destruct L as [x [<- X]]. apply in_concat in V. destruct V as [l [L V]]. apply in_map_iff in L. destruct L as [q [<- Q]].
    destruct V as [<-|[<-|[]]]; apply (A x q X Q).
Qed.

(** the value that the analysis works with bounds every plausible vector *)
Lemma solve_bounds c m t v : plausible info c m t v ->
  (let '(p, free) := columns info (pedf_msrp_lp exact info m t c) in value_bound p free (solver p free)) -> rlen info c v + blen v <= solve solver info (pedf_msrp_lp exact info m t c).
Proof.
  intros PL. unfold solve, columns. cbv zeta. intros VB. pose proof (lp_feasible info n OK c m t v PL) as F. pose proof (lp_value info n OK c m t v PL) as LV.
  destruct (columns_feasible _ _ _ (vars_fit exact m t c) F) as [z [Z1 Z2]]. specialize (VB z Z1). rewrite Z2 in VB.
  rewrite <- (Qfloor_Z (rlen info c v + blen v)). apply Qfloor_resp_le. eapply Qle_trans; [exact LV|exact VB].
Qed.
End Solve.
