(** The C++ global EDF tests agree with the Python ones. *)
From Coq Require Import ZArith QArith List Bool Lia Psatz.
From Verif Require Import Base ModelTasks ModelNative SpecUni SpecQPA ProofUni ProofQPA ModelGEDF ModelGEDFNative ProofGEDF ProofGEDFIter ProofGEDFRta.
Import ListNotations.
Open Scope Z_scope.

Definition nt (t : task) : ntask := NTask (t_cost t) (t_period t) (t_deadline t) (t_deadline t) 0 0.

Lemma native_map : forall ts, Forall wf_task ts -> get_native_taskset ts = map nt ts.
Proof.
  intros ts H. unfold get_native_taskset. assert (G : forall a, fold_left (fun ts t => add_task ts (t_cost t) (t_period t) (t_deadline t)) ts a = a ++ map nt ts).
  { induction H as [|t ts [_ [Ht _]] _ IH]; intros a; cbn [fold_left map]; [rewrite app_nil_r; reflexivity|].
    rewrite IH. unfold add_task at 1. rewrite <- app_assoc. cbn [app]. f_equal. f_equal. unfold task_init, nt.
    destruct (Z.eqb_spec (t_deadline t) 0); [lia|]. reflexivity. }
  apply G.
Qed.

(** ** Preconditions *)
Definition pre_task (t : task) : Prop := 1 <= t_cost t /\ t_cost t <= t_deadline t /\ t_cost t <= t_period t.

Lemma feasible_iff : forall ts, has_only_feasible (map nt ts) = true <-> Forall pre_task ts.
Proof.
  intros ts. unfold has_only_feasible. rewrite forallb_forall, Forall_forall. split.
  - intros H t Ht. specialize (H (nt t) (in_map nt ts t Ht)). unfold n_feasible in H. cbn in H.
    rewrite !andb_true_iff, !Z.leb_le, Z.ltb_lt in H. unfold pre_task. lia.
  - intros H x Hx. apply in_map_iff in Hx. destruct Hx as [t [<- Ht]]. specialize (H t Ht). unfold pre_task in H.
    unfold n_feasible. cbn. rewrite !andb_true_iff, !Z.leb_le, Z.ltb_lt. lia.
Qed.

Lemma constrained_iff : forall ts, has_only_constrained (map nt ts) = true <-> Forall constrained ts.
Proof.
  intros ts. unfold has_only_constrained. rewrite forallb_forall, Forall_forall. split.
  - intros H t Ht. specialize (H (nt t) (in_map nt ts t Ht)). unfold n_constrained in H. cbn in H. apply Z.leb_le in H. exact H.
  - intros H x Hx. apply in_map_iff in Hx. destruct Hx as [t [<- Ht]]. specialize (H t Ht). apply Z.leb_le. exact H.
Qed.

Lemma no_susp : forall ts, has_no_suspending (map nt ts) = true.
Proof. intros ts. unfold has_no_suspending. apply forallb_forall. intros x Hx. apply in_map_iff in Hx. destruct Hx as [t [<- _]]. reflexivity. Qed.

Lemma fold_right_qsum : forall A (f : A -> Q) l, fold_right (fun t u => (f t + u)%Q) 0%Q l = qsum (map f l).
Proof. induction l; cbn; [reflexivity|]. rewrite IHl. reflexivity. Qed.

Lemma fold_qsum : forall A (f : A -> Q) l, (fold_left (fun u t => u + f t) l 0 == qsum (map f l))%Q.
Proof. intros. rewrite qsum_fold, fold_right_qsum. ring. Qed.

Lemma qsum_ext : forall A (f g : A -> Q) l, (forall x, In x l -> (f x == g x)%Q) -> (qsum (map f l) == qsum (map g l))%Q.
Proof.
  induction l; intros H; cbn [map qsum fold_right]; [reflexivity|]. fold (qsum (map f l)) (qsum (map g l)).
  rewrite H by (left; reflexivity). rewrite IHl by (intros; apply H; right; assumption). reflexivity.
Qed.

Lemma util_eq : forall ts, (ns_util (map nt ts) == ts_utilization ts None)%Q.
Proof.
  intros. unfold ns_util. rewrite fold_qsum. rewrite map_map. apply qsum_ext. intros. reflexivity.
Qed.

Lemma Qle_bool_congr : forall a b c d, (a == c)%Q -> (b == d)%Q -> Qle_bool a b = Qle_bool c d.
Proof.
  intros a b c d H1 H2. apply eq_true_iff_eq. rewrite !Qle_bool_iff, H1, H2. reflexivity.
Qed.
Lemma Qeq_bool_congr : forall a b c d, (a == c)%Q -> (b == d)%Q -> Qeq_bool a b = Qeq_bool c d.
Proof.
  intros a b c d H1 H2. apply eq_true_iff_eq. rewrite !Qeq_bool_iff, H1, H2. reflexivity.
Qed.

Lemma pre_ok : forall m ts, Forall pre_task ts -> Forall constrained ts -> (ts_utilization ts None <= inject_Z m)%Q ->
  preconditions m (map nt ts) = true.
Proof.
  intros m ts Hp Hc Hu. unfold preconditions. apply feasible_iff in Hp. apply constrained_iff in Hc. rewrite Hp, Hc, no_susp.
  unfold is_not_overutilized. apply Qle_bool_iff in Hu. rewrite (Qle_bool_congr _ _ _ _ (util_eq ts) (Qeq_refl _)), Hu. reflexivity.
Qed.

Lemma pre_iff : forall m ts, preconditions m (map nt ts) = true <->
  Forall pre_task ts /\ Forall constrained ts /\ (ts_utilization ts None <= inject_Z m)%Q.
Proof.
  intros m ts. split.
  - unfold preconditions. rewrite no_susp, andb_true_r, !andb_true_iff. intros [[H1 H2] H3]. apply feasible_iff in H1. apply constrained_iff in H3.
    unfold is_not_overutilized in H2. apply Qle_bool_iff in H2. rewrite util_eq in H2. auto.
  - intros [H1 [H2 H3]]. apply pre_ok; assumption.
Qed.

Lemma wf_of_pre : forall ts, Forall pre_task ts -> Forall wf_task ts.
Proof. intros ts H. eapply Forall_impl; [|exact H]. intros t [H1 [H2 H3]]. unfold wf_task. lia. Qed.
Lemma feas_of_pre : forall ts, Forall pre_task ts -> Forall feasible ts.
Proof. intros ts H. eapply Forall_impl; [|exact H]. intros t [H1 [H2 H3]]. unfold feasible. lia. Qed.

(** ** GFB *)
Lemma density_native : forall t, constrained t -> n_density (nt t) = density t.
Proof. intros t H. unfold n_density, density, frac, zdivq. cbn. unfold constrained in H. rewrite Z.min_r by lia. reflexivity. Qed.

Lemma map_ext_Forall : forall A B (P : A -> Prop) (f g : A -> B) l, Forall P l -> (forall x, P x -> f x = g x) -> map f l = map g l.
Proof. intros A B P f g l H E. induction H; cbn; [reflexivity|]. rewrite E, IHForall by assumption. reflexivity. Qed.

Lemma sum_density_native : forall ts, Forall constrained ts -> (ns_density (map nt ts) == ts_density ts)%Q.
Proof.
  intros ts H. unfold ns_density, ts_density. rewrite fold_qsum, map_map.
  rewrite (map_ext_Forall _ _ _ _ _ ts H density_native). reflexivity.
Qed.

Lemma fold_left_map : forall A B C (g : A -> C -> A) (f : B -> C) l a, fold_left g (map f l) a = fold_left (fun a x => g a (f x)) l a.
Proof. induction l; intros; cbn; auto. Qed.

Lemma density_pos : forall t, pre_task t -> (0 < density t)%Q.
Proof.
  intros t [H1 [H2 H3]]. unfold density, zdivq. apply Qlt_shift_div_l.
  - change 0%Q with (inject_Z 0). rewrite <- Zlt_Qlt. lia.
  - rewrite Qmult_0_l. change 0%Q with (inject_Z 0). rewrite <- Zlt_Qlt. lia.
Qed.

Lemma max_density_native : forall t ts, Forall constrained (t :: ts) -> Forall pre_task (t :: ts) ->
  ns_max_density (map nt (t :: ts)) = max_list (density t) (map density ts).
Proof.
  intros t ts Hc Hp. inversion_clear Hc. inversion_clear Hp. unfold ns_max_density. cbn [map fold_left].
  rewrite density_native by assumption. unfold qmax at 2.
  assert (E : Qle_bool (density t) 0 = false).
  { apply not_true_iff_false. rewrite Qle_bool_iff. apply Qlt_not_le. apply density_pos. assumption. }
  rewrite E. cbn [negb]. unfold max_list. rewrite !fold_left_map. generalize (density t).
  clear E H1 H. induction ts as [|u ts IH]; intros q; cbn [fold_left]; [reflexivity|]. inversion_clear H0. inversion_clear H2.
  rewrite IH by assumption. rewrite density_native by assumption. reflexivity.
Qed.

Lemma gfb_agree : forall m ts b, Forall pre_task ts -> Forall constrained ts -> (ts_utilization ts None <= inject_Z m)%Q ->
  n_gfb m (get_native_taskset ts) b = gfb_test m ts.
Proof.
  intros m ts b Hp Hc Hu. rewrite native_map by (apply wf_of_pre; assumption). unfold n_gfb. rewrite pre_ok by assumption.
  rewrite andb_false_r. destruct ts as [|t r].
  - cbn. apply Qle_bool_iff. unfold ts_utilization in Hu. cbn in Hu. unfold ns_density, ns_max_density. cbn [fold_left].
    setoid_replace (inject_Z m - (inject_Z m - 1) * 0)%Q with (inject_Z m) by ring. exact Hu.
  - unfold gfb_test. apply Qle_bool_congr; [apply sum_density_native; assumption|].
    rewrite max_density_native by assumption. reflexivity.
Qed.

(** ** BAK *)
Definition small (t : task) : Prop := t_period t < 2 ^ 64.

Lemma beta_native : forall ti tk l, wf_task ti -> wf_task tk -> constrained ti -> small ti -> (n_bak_beta (nt ti) (nt tk) l == bak_beta ti tk l)%Q.
Proof.
  intros ti tk l [I1 [I2 I3]] [K1 [K2 K3]] Hc Hs. unfold constrained, small in *. unfold n_bak_beta, bak_beta. cbn [nt n_period n_deadline n_wcet].
  change (n_util (nt ti)) with (utilization ti).
  assert (U : ulong (t_period ti - t_deadline ti) = t_period ti - t_deadline ti) by (unfold ulong; apply Z.mod_small; lia).
  rewrite U. unfold zdivq. destruct (negb (Qle_bool (utilization ti) l)).
  - apply Qplus_comp; [ring|reflexivity].
  - ring.
Qed.

Lemma bak_beta_nonneg : forall ti tk l, wf_task ti -> wf_task tk -> constrained ti -> (0 <= bak_beta ti tk l)%Q.
Proof.
  intros ti tk l [I1 [I2 I3]] [K1 [K2 K3]] Hc. unfold constrained in Hc. unfold bak_beta.
  assert (U : (0 <= utilization ti)%Q).
  { unfold utilization, zdivq. apply Qle_shift_div_l; [change 0%Q with (inject_Z 0); rewrite <- Zlt_Qlt; lia|].
    rewrite Qmult_0_l. change 0%Q with (inject_Z 0). rewrite <- Zle_Qle. lia. }
  assert (P : (0 <= zdivq (t_period ti - t_deadline ti) (t_deadline tk))%Q).
  { unfold zdivq. apply Qle_shift_div_l; [change 0%Q with (inject_Z 0); rewrite <- Zlt_Qlt; lia|].
    rewrite Qmult_0_l. change 0%Q with (inject_Z 0). rewrite <- Zle_Qle. lia. }
  assert (P1 : (0 <= utilization ti * (1 + zdivq (t_period ti - t_deadline ti) (t_deadline tk)))%Q).
  { apply Qmult_le_0_compat; [assumption|]. lra. }
  destruct (Qle_bool (utilization ti) l) eqn:E; cbn [negb]; [assumption|].
  assert (L : (l < utilization ti)%Q).
  { apply Qnot_le_lt. intros X. apply Qle_bool_iff in X. congruence. }
  assert (P2 : (0 <= (inject_Z (t_cost ti) - l * inject_Z (t_period ti)) / inject_Z (t_deadline tk))%Q).
  { apply Qle_shift_div_l; [change 0%Q with (inject_Z 0); rewrite <- Zlt_Qlt; lia|]. rewrite Qmult_0_l.
    assert (X : (l * inject_Z (t_period ti) <= utilization ti * inject_Z (t_period ti))%Q) by (apply qle_scale; [lia|lra]).
    unfold utilization in X. rewrite zdivq_scale in X by lia. lra. }
  lra.
Qed.

Definition bterm1 (ti tk : task) (l : Q) : Q := min_q 1 (bak_beta ti tk l).

Lemma min_native : forall a b, (a == b)%Q -> ((if negb (Qle_bool a 1) then 1 else a) == min_q 1 b)%Q.
Proof.
  intros a b H. unfold min_q. destruct (Qle_bool a 1) eqn:E1; destruct (Qle_bool 1 b) eqn:E2; cbn [negb]; try reflexivity; try assumption.
  - apply Qle_bool_iff in E1. apply Qle_bool_iff in E2. lra.
  - assert (~ (a <= 1)%Q) by (rewrite <- Qle_bool_iff; congruence). assert (~ (1 <= b)%Q) by (rewrite <- Qle_bool_iff; congruence). lra.
Qed.

Lemma bterm1_nonneg : forall ti tk l, wf_task ti -> wf_task tk -> constrained ti -> (0 <= bterm1 ti tk l)%Q.
Proof. intros. pose proof (bak_beta_nonneg ti tk l H H0 H1). unfold bterm1, min_q. destruct (negb _); lra. Qed.

Lemma qsum_nonneg : forall l, (forall x, In x l -> (0 <= x)%Q) -> (0 <= qsum l)%Q.
Proof.
  induction l; intros H; cbn [qsum fold_right]; [lra|]. fold (qsum l). assert (0 <= a)%Q by (apply H; left; reflexivity).
  assert (0 <= qsum l)%Q by (apply IHl; intros; apply H; right; assumption). lra.
Qed.

Lemma bak_loop_native : forall ts tk l bound sum, Forall (fun t => wf_task t /\ constrained t /\ small t) ts -> wf_task tk ->
  n_bak_loop (map nt ts) (nt tk) l bound sum = Qle_bool (sum + qsum (map (fun t => bterm1 t tk l) ts)) bound.
Proof.
  intros ts tk l bound. induction ts as [|t ts IH]; intros sum H Hk; cbn [map n_bak_loop qsum fold_right].
  - apply Qle_bool_congr; [ring|reflexivity].
  - fold (qsum (map (fun t => bterm1 t tk l) ts)). inversion_clear H as [|? ? [W [C S]] H1].
    destruct (Qle_bool sum bound) eqn:E.
    + rewrite IH by assumption. apply Qle_bool_congr; [|reflexivity].
      rewrite (min_native _ _ (beta_native t tk l W Hk C S)). fold (bterm1 t tk l). ring.
    + symmetry. apply not_true_iff_false. rewrite Qle_bool_iff. intros X.
      assert (N : ~ (sum <= bound)%Q) by (rewrite <- Qle_bool_iff; congruence). apply N.
      pose proof (bterm1_nonneg t tk l W Hk C). assert (0 <= qsum (map (fun t => bterm1 t tk l) ts))%Q; [|lra].
      apply qsum_nonneg. intros y Hy. apply in_map_iff in Hy. destruct Hy as [u [<- Hu]]. rewrite Forall_forall in H1.
      destruct (H1 u Hu) as [A [B _]]. apply bterm1_nonneg; assumption.
Qed.

Lemma density_le1 : forall t, pre_task t -> (density t <= 1)%Q.
Proof.
  intros t [H1 [H2 H3]]. unfold density, zdivq. apply Qle_shift_div_r; [change 0%Q with (inject_Z 0); rewrite <- Zlt_Qlt; lia|].
  rewrite Qmult_1_l, <- Zle_Qle. lia.
Qed.

Lemma bak_task_native : forall m ts tk, Forall pre_task ts -> Forall constrained ts -> Forall small ts -> In tk ts ->
  n_bak_task m (map nt ts) (nt tk) = bak_task ts tk m.
Proof.
  intros m ts tk Hp Hc Hs Hin. rewrite Forall_forall in Hp, Hc, Hs. unfold n_bak_task, bak_task. rewrite density_native by auto.
  assert (E : Qle_bool (density tk) 1 = true) by (apply Qle_bool_iff; apply density_le1; auto). rewrite E. cbn [negb].
  rewrite bak_loop_native.
  - apply Qle_bool_congr; [unfold bterm1; ring|ring].
  - apply Forall_forall. intros t Ht. destruct (Hp t Ht) as [A [B D]]. split; [unfold wf_task; lia|]. auto.
  - destruct (Hp tk Hin) as [A [B D]]. unfold wf_task. lia.
Qed.

Lemma forallb_map_ext : forall A B (h : A -> B) (f : B -> bool) (g : A -> bool) l, (forall x, In x l -> f (h x) = g x) ->
  forallb f (map h l) = forallb g l.
Proof. induction l; intros H; cbn; [reflexivity|]. rewrite H by (left; reflexivity). rewrite IHl; [reflexivity|]. intros. apply H. right. assumption. Qed.

Lemma bak_agree : forall m ts b, Forall pre_task ts -> Forall constrained ts -> Forall small ts -> (ts_utilization ts None <= inject_Z m)%Q ->
  n_bak m (get_native_taskset ts) b = bak_test m ts.
Proof.
  intros m ts b Hp Hc Hs Hu. rewrite native_map by (apply wf_of_pre; assumption). unfold n_bak.
  assert (P : has_only_feasible (map nt ts) && is_not_overutilized (map nt ts) m && has_no_suspending (map nt ts) = true).
  { pose proof (pre_ok m ts Hp Hc Hu) as X. unfold preconditions in X. rewrite !andb_true_iff in X. destruct X as [[[X1 X2] X3] X4].
    rewrite X1, X2, X4. reflexivity. }
  rewrite P, andb_false_r. unfold bak_test. apply forallb_map_ext. intros t Ht. apply bak_task_native; assumption.
Qed.

(** ** BCL *)
Lemma bcl_N_native : forall ti tk, wf_task ti -> wf_task tk -> constrained ti -> max_jobs_contained (nt ti) (nt tk) = bcl_N tk ti.
Proof.
  intros ti tk [I1 [I2 I3]] [K1 [K2 K3]] Hc. unfold constrained in Hc. unfold max_jobs_contained, bcl_N. cbn [nt n_deadline n_period].
  destruct (Z.ltb_spec (t_deadline tk) (t_deadline ti)).
  - rewrite (div_unique_pos (t_deadline tk - t_deadline ti) (t_period ti) (-1)); lia.
  - rewrite Z.quot_div_nonneg by lia. lia.
Qed.

Lemma bcl_beta_native : forall ti tk, wf_task ti -> wf_task tk -> constrained ti -> (n_bcl_beta (nt ti) (nt tk) == bcl_beta tk ti)%Q.
Proof.
  intros ti tk Hi Hk Hc. unfold n_bcl_beta, bcl_beta, bcl_work, zdivq. rewrite bcl_N_native by assumption. cbn [nt n_deadline n_period n_wcet].
  rewrite <- inject_Z_plus. set (N := bcl_N tk ti).
  replace (if t_period ti * N <? t_deadline tk then t_deadline tk - N * t_period ti else 0) with (Z.max 0 (t_deadline tk - N * t_period ti)); [reflexivity|].
  destruct (Z.ltb_spec (t_period ti * N) (t_deadline tk)); lia.
Qed.

Lemma min_native2 : forall a b x y, (a == b)%Q -> (x == y)%Q -> ((if negb (Qle_bool a x) then x else a) == min_q b y)%Q.
Proof.
  intros a b x y H H'. unfold min_q. rewrite (Qle_bool_congr _ _ _ _ H H'). destruct (negb (Qle_bool b y)); assumption.
Qed.

Lemma bcl_fold_native : forall tk lt lt' l s0 b0, (lt == lt')%Q -> wf_task tk -> Forall (fun t => wf_task t /\ constrained t) l ->
  let r := fold_left (n_bcl_step (nt tk) lt) (map nt l) (s0, b0) in
  (fst r == s0 + qsum (map (fun b => min_q b lt') (map (bcl_beta tk) l)))%Q /\
  snd r = b0 || existsb (fun b => negb (Qle_bool b 0) && Qle_bool b lt') (map (bcl_beta tk) l).
Proof.
  intros tk lt lt' l. induction l as [|t l IH]; intros s0 b0 Hl Hk H; cbn [map fold_left].
  - cbn. rewrite orb_false_r. split; [ring|reflexivity].
  - inversion_clear H as [|? ? [W C] H1]. unfold n_bcl_step at 2 4. pose proof (bcl_beta_native t tk W Hk C) as Eb.
    match goal with |- context [fold_left _ _ (?a, ?b)] => destruct (IH a b Hl Hk H1) as [I1 I2] end. split.
    + rewrite I1. cbn [qsum fold_right]. fold (qsum (map (fun b => min_q b lt') (map (bcl_beta tk) l))).
      rewrite (min_native2 _ _ _ _ Eb Hl). ring.
    + rewrite I2. cbn [existsb]. rewrite <- orb_assoc. f_equal. f_equal. rewrite (Qle_bool_congr _ _ _ _ Eb (Qeq_refl 0)), (Qle_bool_congr _ _ _ _ Eb Hl). reflexivity.
Qed.

Lemma others_map : forall A B (f : A -> B) k l, others k (map f l) = map f (others k l).
Proof. intros. unfold others. rewrite map_app, firstn_map, skipn_map. reflexivity. Qed.

Lemma indexed_map : forall A B (f : A -> B) l, indexed (map f l) = map (fun p => (fst p, f (snd p))) (indexed l).
Proof.
  intros A B f l. unfold indexed. rewrite map_length. generalize 0%nat. induction l as [|x l IH]; intros a; cbn; [reflexivity|].
  rewrite IH. reflexivity.
Qed.

Lemma bcl_agree : forall m ts b, Forall pre_task ts -> Forall constrained ts -> (ts_utilization ts None <= inject_Z m)%Q ->
  n_bcl m (get_native_taskset ts) b = bcl_test m ts.
Proof.
  intros m ts b Hp Hc Hu. rewrite native_map by (apply wf_of_pre; assumption). unfold n_bcl. rewrite pre_ok by assumption.
  rewrite andb_false_r. unfold bcl_test. rewrite indexed_map. apply forallb_map_ext. intros [k t] Hin. cbn [fst snd].
  apply indexed_in in Hin. apply nth_error_In in Hin. pose proof (wf_of_pre ts Hp) as Hw. rewrite Forall_forall in Hw, Hc.
  unfold n_bcl_task, bcl_task. rewrite others_map. rewrite density_native by auto.
  assert (El : (density t * -1 + 1 == 1 - density t)%Q) by ring.
  pose proof (bcl_fold_native t _ _ (others k ts) 0%Q false El (Hw t Hin)) as H.
  destruct (fold_left (n_bcl_step (nt t) (density t * -1 + 1)) (map nt (others k ts)) (0%Q, false)) as [bs sm].
  destruct H as [H1 H2]; [apply Forall_forall; intros u Hu'; apply in_others in Hu'; auto|]. cbn [fst snd orb] in H1, H2. rewrite Qplus_0_l in H1.
  f_equal.
  - f_equal. apply Qle_bool_congr; [ring|exact H1].
  - rewrite H2, andb_comm. f_equal. apply Qeq_bool_congr; [exact H1|ring].
Qed.

(** ** BCL iterative *)
Lemma combine_map_l : forall A B C (f : A -> C) (l : list A) (r : list B), combine (map f l) r = map (fun p => (f (fst p), snd p)) (combine l r).
Proof. induction l; intros r; [reflexivity|]. destruct r; [reflexivity|]. cbn. rewrite IHl. reflexivity. Qed.

Lemma bcli_workload_native : forall ti tk s, wf_task ti -> wf_task tk -> n_bcli_workload (nt ti) (nt tk) s = bcli_workload (t_deadline tk) ti s.
Proof.
  intros ti tk s [I1 [I2 I3]] [K1 [K2 K3]]. unfold n_bcli_workload, bcli_workload. cbn [nt n_deadline n_period n_wcet].
  rewrite Z.quot_div_nonneg by lia. destruct (Z.leb_spec (s + t_deadline tk / t_period ti * t_period ti) (t_deadline tk)); lia.
Qed.

Section BCLIN.
  Variables (m : Z) (ts : taskset).
  Hypothesis Hm : 1 <= m.
  Hypothesis Hp : Forall pre_task ts.
  Hypothesis Hc : Forall constrained ts.

  Lemma bcli_step_native : forall k s f u, (k < length ts)%nat -> bInv m ts s ->
    n_bcli_step m (map nt ts) (s, f, u) (k, nt (nth k ts dt)) = bcli_step m ts (s, f, u) (k, nth k ts dt).
  Proof using Hm Hp Hc.
    intros k s f u Hk [Ls Is]. pose proof (wf_of_pre ts Hp) as Hw. pose proof (feas_of_pre ts Hp) as Hf.
    unfold n_bcli_step, bcli_step. cbn [nt n_deadline n_period n_wcet].
    rewrite combine_map_l, others_map, fold_left_map. cbn [fst snd]. rewrite fold_add_zsum, Z.add_0_l.
    assert (E : map (fun q : task * Z => Z.min (n_bcli_workload (nt (fst q)) (nt (nth k ts dt)) (snd q)) (t_deadline (nth k ts dt) - t_cost (nth k ts dt) + 1)) (others k (combine ts s))
              = map (fun p => Z.min (bcli_workload (t_deadline (nth k ts dt)) (fst p) (snd p)) (t_deadline (nth k ts dt) - t_cost (nth k ts dt) + 1)) (others k (combine ts s))).
    { apply map_ext_in. intros [t x] Hin. apply in_others in Hin. apply in_combine_l in Hin. cbn [fst snd]. rewrite bcli_workload_native; [reflexivity| |].
      - rewrite Forall_forall in Hw. auto.
      - apply Forall_nth_lt; assumption. }
    rewrite E. clear E. rewrite sum_combine by assumption.
    change (edf_slack_update k (nth k ts dt) ts s m) with (upd m ts k s).
    pose proof (upd_eq m ts k s Ls) as Eu. pose proof (bsum_nonneg ts Hw Hf Hc k s Hk) as Nn.
    unfold bsum, bterm in Eu, Nn. cbn [fst snd] in *. set (B := sumf _ _) in *.
    rewrite Z.quot_div_nonneg by lia. destruct (Is k Hk) as [Ik _].
    destruct (Z.ltb_spec (t_deadline (nth k ts dt)) (t_cost (nth k ts dt) + B / m)).
    - assert (upd m ts k s < 0) by lia. rewrite Z.max_l by lia. rewrite set_nth_same by (rewrite Ls; assumption).
      destruct (Z.leb_spec 0 (upd m ts k s)); [lia|]. destruct (Z.ltb_spec (nth k s 0) (upd m ts k s)); [lia|]. rewrite andb_false_r, orb_false_r. reflexivity.
    - replace (t_deadline (nth k ts dt) - (t_cost (nth k ts dt) + B / m)) with (upd m ts k s) by lia.
      destruct (Z.leb_spec 0 (upd m ts k s)); [|lia]. rewrite andb_true_r.
      destruct (Z.ltb_spec (nth k s 0) (upd m ts k s)).
      + rewrite Z.max_r by lia. rewrite orb_true_r. reflexivity.
      + rewrite Z.max_l by lia. rewrite set_nth_same by (rewrite Ls; assumption). rewrite orb_false_r. reflexivity.
  Qed.

  Lemma bcli_fold_native : forall l s f u, (forall p, In p l -> (fst p < length ts)%nat /\ snd p = nth (fst p) ts dt) -> bInv m ts s ->
    fold_left (n_bcli_step m (map nt ts)) (map (fun p => (fst p, nt (snd p))) l) (s, f, u) = fold_left (bcli_step m ts) l (s, f, u).
  Proof using Hm Hp Hc.
    intros l. induction l as [|[k t] l IH]; intros s f u Hl Hs; cbn [map fold_left]; [reflexivity|].
    destruct (Hl (k, t) (or_introl eq_refl)) as [Hk Ht]. cbn [fst snd] in *. subst t. rewrite bcli_step_native by assumption.
    pose proof (bfold m ts Hm (wf_of_pre ts Hp) (feas_of_pre ts Hp) Hc [(k, nth k ts dt)] s f u) as B. cbn [fold_left] in B.
    destruct (bcli_step m ts (s, f, u) (k, nth k ts dt)) as [[s1 f1] u1].
    destruct B as [B1 _]; [intros p [<-|[]]; cbn; auto|assumption|]. apply IH; [|assumption]. intros p Hp'. apply Hl. right. exact Hp'.
  Qed.

  Lemma bcli_loop_native : forall fuel lim round s u f, bInv m ts s ->
    n_bcli_loop fuel m (map nt ts) lim round s u f = option_map fst (bcli_loop fuel m ts lim round s u f).
  Proof using Hm Hp Hc.
    induction fuel; intros lim round s u f Hs; cbn [n_bcli_loop bcli_loop]; destruct (continue lim round u f); try reflexivity.
    rewrite indexed_map. rewrite bcli_fold_native; [|apply indexed_ok|assumption].
    pose proof (bround m ts Hm (wf_of_pre ts Hp) (feas_of_pre ts Hp) Hc s Hs) as R. unfold bcli_round in *.
    destruct (fold_left (bcli_step m ts) (indexed ts) (s, true, false)) as [[s1 f1] u1]. destruct R as [R1 _]. apply IHfuel. assumption.
  Qed.
End BCLIN.

(** ** RTA *)
Lemma loop_native : forall est est' C D delta, C <= D -> (forall x, C <= x -> est x = est' x) -> (forall x, C <= x -> C <= est' x) ->
  forall fuel last, C <= last -> n_rta_loop fuel est D delta last (est last) = rta_fix_loop fuel est' D delta last (est' last).
Proof.
  intros est est' C D delta HCD He Hg. induction fuel; intros last Hl; cbn [n_rta_loop rta_fix_loop]; rewrite He by assumption; [reflexivity|].
  destruct (negb (last =? est' last) && (est' last <=? D)) eqn:E; [|reflexivity]. apply IHfuel. pose proof (Hg last Hl).
  destruct (Z.ltb_spec last (est' last)); [destruct (Z.ltb_spec (est' last - last) delta)|]; cbn [andb]; lia.
Qed.

Section RTAN.
  Variables (m : Z) (ts : taskset).
  Hypothesis Hm : 1 <= m.
  Hypothesis Hp : Forall pre_task ts.
  Hypothesis Hc : Forall constrained ts.

  Lemma est_native : forall k s R, (k < length ts)%nat -> inr ts s -> t_cost (nth k ts dt) <= R ->
    n_response_estimate m k (nt (nth k ts dt)) (map nt ts) s R = rest m ts k s R.
  Proof using Hm Hp Hc.
    intros k s R Hk [Ls Is] HR. pose proof (wf_of_pre ts Hp) as Hw. pose proof (feas_of_pre ts Hp) as Hf.
    rewrite (rest_eq m ts k s R Ls). unfold n_response_estimate. cbn [nt n_deadline n_period n_wcet].
    rewrite combine_map_l, others_map, fold_left_map. cbn [fst snd]. rewrite fold_add_zsum, Z.add_0_l. rewrite sum_combine by assumption.
    assert (E : sumf (fun i => if Nat.eqb i k then 0 else (fun q : task * Z => Z.min (Z.min (n_edf_workload (nt (fst q)) (nt (nth k ts dt)) (snd q))
                 (n_rta_workload (nt (fst q)) R (snd q))) (R - t_cost (nth k ts dt) + 1)) (nth i ts dt, nth i s 0)) (length ts) = rsum ts k s R).
    { apply sumf_ext. intros i Hi. destruct (Nat.eqb i k); [reflexivity|]. cbn [fst snd]. unfold rterm.
      destruct (T_ok ts Hw Hf Hc i Hi) as [I1 [I2 [I3 [I4 I5]]]]. destruct (T_ok ts Hw Hf Hc k Hk) as [K1 [K2 [K3 [K4 K5]]]]. specialize (Is i Hi).
      rewrite (Z.min_comm (n_edf_workload _ _ _)). f_equal. f_equal.
      - unfold n_rta_workload, rta_interfering_workload. cbn [nt n_deadline n_period n_wcet].
        replace (R + (t_deadline (nth i ts dt) - t_cost (nth i ts dt)) - nth i s 0) with (R + t_deadline (nth i ts dt) - t_cost (nth i ts dt) - nth i s 0) by lia.
        rewrite Z.quot_div_nonneg, Z.rem_mod_nonneg by lia.
        match goal with |- (if ?a <? ?b then _ else _) = _ => destruct (Z.ltb_spec a b) end; lia.
      - unfold n_edf_workload, edf_interfering_workload. cbn [nt n_deadline n_period n_wcet].
        rewrite Z.quot_div_nonneg, Z.rem_mod_nonneg by lia.
        match goal with |- (if ?a <? ?b then _ else _) = _ => destruct (Z.ltb_spec a b) end; lia. }
    cbn beta in E. cbn [fst snd] in *. rewrite E. pose proof (rest_ge m ts Hm Hw Hf Hc k s R Hk (conj Ls Is) HR) as G. rewrite (rest_eq m ts k s R Ls) in G.
    assert (0 <= rsum ts k s R).
    { pose proof (div_spec (rsum ts k s R) m ltac:(lia)). nia. }
    rewrite Z.quot_div_nonneg by lia. lia.
  Qed.

  Lemma rta_step_native : forall ffuel delta k s f u, (k < length ts)%nat -> inr ts s ->
    n_rta_step ffuel m delta (map nt ts) (Some (s, f, u)) (k, nt (nth k ts dt)) = rta_step ffuel m delta ts (Some (s, f, u)) (k, nth k ts dt).
  Proof using Hm Hp Hc.
    intros ffuel delta k s f u Hk Hs. pose proof (wf_of_pre ts Hp) as Hw. pose proof (feas_of_pre ts Hp) as Hf.
    cbn [n_rta_step rta_step]. unfold rta_fixpoint. cbn [nt n_deadline n_period n_wcet].
    destruct (T_ok ts Hw Hf Hc k Hk) as [K1 [K2 [K3 [K4 K5]]]].
    rewrite (loop_native _ (response_estimate k (nth k ts dt) ts s m) (t_cost (nth k ts dt))); [reflexivity|assumption| | |lia].
    - intros x Hx. apply est_native; assumption.
    - intros x Hx. apply (rest_ge m ts Hm Hw Hf Hc k s x Hk Hs Hx).
  Qed.

  Lemma n_fold_none : forall ffuel delta l, fold_left (n_rta_step ffuel m delta (map nt ts)) l None = None.
  Proof using. induction l; [reflexivity|exact IHl]. Qed.

  Lemma rta_inr : forall ffuel delta k s f u s' f' u', (k < length ts)%nat -> inr ts s ->
    rta_step ffuel m delta ts (Some (s, f, u)) (k, nth k ts dt) = Some (s', f', u') -> inr ts s'.
  Proof using Hm Hp Hc.
    intros ffuel delta k s f u s' f' u' Hk Hs E. pose proof (wf_of_pre ts Hp) as Hw. pose proof (feas_of_pre ts Hp) as Hf.
    apply rta_step_cases in E; try assumption. destruct E as [r [Er [[R1 [R2 _]]|[R1 [R2 _]]]]]; [|subst; assumption].
    destruct (rta_fixpoint_result m ts Hm Hw Hf Hc ffuel delta k s r Hk Hs Er) as [F1 _]. destruct Hs as [Ls Is]. subst s'.
    split; [rewrite set_nth_length; [assumption|rewrite Ls; exact Hk]|].
    intros i Hi. rewrite nth_set_nth by (rewrite Ls; exact Hk). specialize (Is i Hi). destruct (Nat.eqb_spec i k) as [->|]; lia.
  Qed.

  Lemma rta_fold_native : forall ffuel delta l s f u, (forall p, In p l -> (fst p < length ts)%nat /\ snd p = nth (fst p) ts dt) -> inr ts s ->
    fold_left (n_rta_step ffuel m delta (map nt ts)) (map (fun p => (fst p, nt (snd p))) l) (Some (s, f, u)) =
    fold_left (rta_step ffuel m delta ts) l (Some (s, f, u)) /\
    forall s' f' u', fold_left (rta_step ffuel m delta ts) l (Some (s, f, u)) = Some (s', f', u') -> inr ts s'.
  Proof using Hm Hp Hc.
    intros ffuel delta l. induction l as [|[k t] l IH]; intros s f u Hl Hs; cbn [map fold_left].
    - split; [reflexivity|]. intros s' f' u' E. injection E as <- _ _. assumption.
    - destruct (Hl (k, t) (or_introl eq_refl)) as [Hk Ht]. cbn [fst snd] in *. subst t. rewrite rta_step_native by assumption.
      destruct (rta_step ffuel m delta ts (Some (s, f, u)) (k, nth k ts dt)) as [[[s1 f1] u1]|] eqn:E.
      + apply IH; [intros p Hp'; apply Hl; right; exact Hp'|]. eapply rta_inr; eassumption.
      + rewrite n_fold_none, fold_none. split; [reflexivity|discriminate].
  Qed.

  Lemma rta_rounds_native : forall fuel ffuel delta lim round s u f, inr ts s ->
    n_rta_rounds fuel ffuel m delta (map nt ts) lim round s u f = option_map fst (rta_loop fuel ffuel m delta ts lim round s u f).
  Proof using Hm Hp Hc.
    induction fuel; intros ffuel delta lim round s u f Hs; cbn [n_rta_rounds rta_loop]; destruct (continue lim round u f); try reflexivity.
    rewrite indexed_map. destruct (rta_fold_native ffuel delta (indexed ts) s true false (indexed_ok ts) Hs) as [E I]. rewrite E. unfold rta_round.
    destruct (fold_left (rta_step ffuel m delta ts) (indexed ts) (Some (s, true, false))) as [[[s1 f1] u1]|]; [|reflexivity].
    apply IHfuel. eapply I. reflexivity.
  Qed.
End RTAN.

Lemma bcli_agree : forall fuel m ts lim b, 1 <= m -> 0 <= lim -> Forall pre_task ts -> Forall constrained ts -> (ts_utilization ts None <= inject_Z m)%Q ->
  (1 <= fuel)%nat -> n_bcli fuel m (get_native_taskset ts) lim b = option_map fst (bcli_test fuel m ts lim).
Proof.
  intros fuel m ts lim b Hm Hlim Hp Hc Hu Hfu. rewrite native_map by (apply wf_of_pre; assumption). unfold n_bcli. rewrite pre_ok by assumption.
  rewrite andb_false_r. pose proof (wf_of_pre ts Hp) as Hw. pose proof (feas_of_pre ts Hp) as Hf.
  destruct (b && Nat.eqb (length (map nt ts)) 0) eqn:E.
  - apply andb_true_iff in E. destruct E as [_ E]. apply Nat.eqb_eq in E. destruct ts; [|discriminate]. destruct fuel; [lia|].
    unfold bcli_test. cbn [bcli_loop map]. unfold continue at 1. cbn [andb negb].
    replace ((lim =? 0) || (0 <? lim)) with true; [cbn; destruct fuel; reflexivity|].
    destruct (Z.eqb_spec lim 0); [reflexivity|]. destruct (Z.ltb_spec 0 lim); [reflexivity|lia].
  - rewrite map_map. unfold bcli_test. apply bcli_loop_native; try assumption. apply bInv_init; assumption.
Qed.

Lemma rta_agree : forall fuel ffuel m ts lim delta b, 1 <= m -> 0 <= lim -> Forall pre_task ts -> Forall constrained ts ->
  (ts_utilization ts None <= inject_Z m)%Q -> (1 <= fuel)%nat ->
  n_rta fuel ffuel m delta (get_native_taskset ts) lim b = option_map fst (rta_test fuel ffuel m ts lim delta).
Proof.
  intros fuel ffuel m ts lim delta b Hm Hlim Hp Hc Hu Hfu. rewrite native_map by (apply wf_of_pre; assumption). unfold n_rta.
  pose proof (wf_of_pre ts Hp) as Hw. pose proof (feas_of_pre ts Hp) as Hf.
  assert (P : has_only_feasible (map nt ts) && is_not_overutilized (map nt ts) m && has_only_constrained (map nt ts) && has_only_feasible (map nt ts) = true).
  { pose proof (pre_ok m ts Hp Hc Hu) as X. unfold preconditions in X. rewrite !andb_true_iff in X. destruct X as [[[X1 X2] X3] X4].
    rewrite X1, X2, X3. reflexivity. }
  rewrite P, andb_false_r.
  destruct (b && Nat.eqb (length (map nt ts)) 0) eqn:E.
  - apply andb_true_iff in E. destruct E as [_ E]. apply Nat.eqb_eq in E. destruct ts; [|discriminate]. destruct fuel; [lia|].
    unfold rta_test. cbn [rta_loop map]. unfold continue at 1. cbn [andb negb].
    replace ((lim =? 0) || (0 <? lim)) with true; [cbn; destruct fuel; reflexivity|].
    destruct (Z.eqb_spec lim 0); [reflexivity|]. destruct (Z.ltb_spec 0 lim); [reflexivity|lia].
  - rewrite map_map. unfold rta_test. apply rta_rounds_native; try assumption. apply inr_init; assumption.
Qed.
