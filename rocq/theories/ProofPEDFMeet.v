(** The verdict of the analysis implies that every job meets its deadline. *)
From Coq Require Import NArith ZArith QArith Qround List Bool Lia Arith.
From Verif Require Base.
From Verif Require Import ModelLocking ModelLP ModelLPSpin ModelPEDF SpecLocking SpecLP SpecSpinFP SpecSpinEDF SpecPEDF ProofLocking ProofLockingMono ProofLPSpin ProofSpin ProofSpinCount ProofSpinFP ProofMSRP ProofMSRPTest ProofLockRules ProofSpinEDF ProofSpinEDFMeet ProofPEDF ProofPEDFVec ProofPEDFLP ProofPEDFCol ProofPEDFExec.
Import ListNotations ModelPEDF.
Open Scope Z_scope.

Lemma zs_const {A} (k : Z) (l : list A) : zs (fun _ => k) l = Z.of_nat (length l) * k.
Proof. induction l as [|x l IH]; [reflexivity|]. rewrite zs_cons, IH. cbn [length]. lia. Qed.

Section Meet.
Variables (info : list taskinfo) (E : execution) (before : nat * nat -> nat * nat -> Prop) (n : nat).
Hypothesis EE : edf_execution info E before.
Hypothesis OK : msrp_ok info n.
Let LR := ee_locks _ _ _ EE.
Let FO := ee_fifo _ _ _ EE.
Variable c : nat.

(** the work of the jobs of a window, one of which is not complete at its end *)
Lemma work_sum s e wj u0 k0 nj : s <= e -> (forall u, In u info -> ti_cluster u = c -> Z.of_nat (length (wj u)) <= nj u) ->
  In u0 info -> ti_cluster u0 = c -> In k0 (wj u0) -> pending E (ti_id u0, k0) e ->
  zs (fun u => zs (fun k => Z.of_nat (count (works E info (ti_id u, k)) s (Z.to_nat (e - s)))) (wj u)) (tasks_in c info) + 1 <= zs (fun u => nj u * cost u) (tasks_in c info).
Proof.
  intros SE CNT U0 C0 K0 P0. set (M := Z.to_nat (e - s)).
  assert (W : forall u k, In u info -> Z.of_nat (count (works E info (ti_id u, k)) s M) <= cost u).
  { intros u k U. pose proof (work_total info E LR (ti_id u) k u s M (wf_id info u (mo_wf _ _ OK) U) (mo_cost _ _ OK u U)). unfold cost. lia. }
  apply zs_more with (x := u0).
  - intros u U. apply in_tasks in U. destruct U as [U C]. transitivity (zs (fun _ => cost u) (wj u)); [apply zs_le; intros k _; apply W; exact U|]. rewrite zs_const. specialize (CNT u U C). pose proof (cost_pos info n OK u U). nia.
  - apply in_tasks. auto.
  - transitivity (zs (fun _ => cost u0) (wj u0)); [|rewrite zs_const; specialize (CNT u0 U0 C0); pose proof (cost_pos info n OK u0 U0); nia].
    apply zs_more with (x := k0); [intros k _; apply W; exact U0|exact K0|].
    pose proof (lr_work _ _ LR (ti_id u0) k0 u0 e (wf_id info u0 (mo_wf _ _ OK) U0) P0) as LW.
    assert (X : (count (works E info (ti_id u0, k0)) s M <= count (works E info (ti_id u0, k0)) (x_rel E (ti_id u0) k0) (Z.to_nat (e - x_rel E (ti_id u0) k0)))%nat).
    { apply count_window; [apply P0|]. intros x X Y. unfold works in Y. apply andb_true_iff in Y. destruct Y as [Y _]. apply (runs_pending info E LR) in Y. unfold pending in Y. cbn [fst snd] in Y. unfold M in X. lia. }
    unfold cost. lia.
Qed.

Variable solver : lprog nat -> list nat -> Q.
Hypothesis FIT : numbers_fit info.
Hypothesis BOUND : forall m t, 0 <= t -> let '(p, free) := columns info (pedf_msrp_lp exact info m t c) in value_bound p free (solver p free).
Notation A := (msrp_analysis solver exact info c).
Notation dem := (dem info c).

Lemma dem_bound t w : 0 <= t -> dem t w -> w <= DBF exact info c t + blocking_PDC A t.
Proof. intros T [v [V ->]]. cbn [msrp_analysis blocking_PDC]. pose proof (solve_bounds info n solver OK FIT c PDC_MODE t v V (BOUND PDC_MODE t T)). lia. Qed.

Definition zero : vec := Vec (fun _ _ => 0) (fun _ _ => 0) None.
Lemma zero_plausible m t : 0 <= t -> plausible info c m t zero.
Proof.
  intros T. constructor; intros; cbn [zero v_s v_a v_b]; try lia; try exact I.
  - pose proof (nr_nonneg info n OK x t H T). pose proof (num_nonneg x q). nia.
  - rewrite zs_zero. apply zs_nonneg. intros i I'. apply in_tasks in I'. pose proof (num_nonneg i q). destruct m; cbn [njobs].
    + unfold AC_max_num_local_jobs, div_ceil. pose proof (period_pos info n OK i (proj1 I')). pose proof (Z.div_pos t (period i) T ltac:(lia)). destruct (_ =? 0); nia.
    + pose proof (nj_nonneg i t). nia.
  - apply zs_nonneg. intros i I'. apply in_tasks in I'. pose proof (num_nonneg i q). pose proof (nr_nonneg info n OK i (deadline x) (proj1 I') ltac:(pose proof (deadline_pos info n OK x H); lia)). pose proof (nr_nonneg info n OK x t H T). nia.
  - rewrite zs_zero. reflexivity.
Qed.

Lemma solve_nonneg m t : 0 <= t -> 0 <= solve solver info (pedf_msrp_lp exact info m t c).
Proof.
  intros T. pose proof (solve_bounds info n solver OK FIT c m t zero (zero_plausible m t T) (BOUND m t T)) as S. cbn [zero blen v_b] in S. unfold blen in S. cbn [zero v_b] in S.
  enough (0 <= rlen info c zero) by lia. unfold rlen. apply zs_nonneg. intros x _. apply zs_nonneg. intros q _. cbn [zero v_s v_a]. lia.
Qed.

Hypothesis LOCAL : local_sharing_same_deadline info.
Variable d : Z.
Hypothesis EARLIER : forall i k u, nth_error info i = Some u -> x_rel E i k + deadline u < d -> x_comp E i k <= x_rel E i k + deadline u.

Lemma ontime e : e <= d -> forall i k u y, nth_error info i = Some u -> y < e -> pending E (i, k) y -> y < x_rel E i k + deadline u.
Proof. intros L i k u y U Y P. destruct (Z.lt_ge_cases y (x_rel E i k + deadline u)) as [H|H]; [exact H|exfalso]. pose proof (EARLIER i k u U ltac:(lia)). unfold pending in P. cbn [fst snd] in P. lia. Qed.

Variables (fuel : nat).
Hypothesis ACCEPT : is_schedulable fuel exact info c A = Some true.

Lemma no_miss_lp j k0 : nth_error info (fst j) = Some k0 -> ti_cluster k0 = c -> due info E j = d -> x_comp E (fst j) (snd j) <= d.
Proof.
  intros K C D. destruct (Z.le_gt_cases (x_comp E (fst j) (snd j)) d) as [L|MISS]; [exact L|exfalso].
  destruct (wf_nth info (fst j) k0 (mo_wf _ _ OK) K) as [IDJ IJ].
  assert (NE : exists t, In t info /\ ti_cluster t = c) by (exists k0; auto).
  destruct (min_deadline_in info c k0 IJ C) as [tm [TM [CM DM]]].
  assert (M1 : 1 <= min_deadline info c) by (rewrite <- DM; apply (deadline_pos info n OK tm TM)).
  assert (DJ : d = x_rel E (fst j) (snd j) + deadline k0) by (rewrite <- D; unfold due, deadline; rewrite K; reflexivity).
  pose proof (rel_low info E before n EE OK (fst j) (snd j) k0 K) as R0. pose proof (deadline_pos info n OK k0 IJ) as D1.
  assert (CJ : on_cpu info c j) by (exists k0; auto). set (rj := x_rel E (fst j) (snd j)) in *.
  destruct (schedulable_covers info c A dem (min_deadline info c) eq_refl M1) with (fuel := fuel) as [F [F1 [FP COV]]].
  { intros t w T Dw. apply dem_bound; [lia|exact Dw]. }
  { intros t w lb T Dw. cbn [msrp_analysis tighter_PDC]. apply dem_bound; [lia|exact Dw]. }
  { intros t t' w T L Dw. apply (dem_mono info n OK c t t' w); [lia|exact L|exact Dw]. }
  { intros T t w M L X Dw. apply (dem_step info n OK c T t w NE M L ltac:(lia) Dw). }
  { exact ACCEPT. }
  { intros x X. unfold bw. cbn [msrp_analysis blocking_AC]. pose proof (solve_nonneg AC_MODE x ltac:(lia)) as S. enough (1 <= arrival_curve exact info c x) by lia. rewrite ac_sum.
    transitivity (zs (fun _ : taskinfo => 0) (tasks_in c info) + 1); [rewrite zs_zero; lia|]. apply zs_more with (x := k0).
    - intros i I. apply in_tasks in I. pose proof (cost_pos info n OK i (proj1 I)). pose proof (period_pos info n OK i (proj1 I)). unfold AC_max_num_local_jobs. assert (0 < div_ceil x (period i)) by (apply div_ceil_spec; lia). nia.
    - apply in_tasks. auto.
    - pose proof (cost_pos info n OK k0 IJ). pose proof (period_pos info n OK k0 IJ). unfold AC_max_num_local_jobs. assert (0 < div_ceil x (period k0)) by (apply div_ceil_spec; lia). nia. }
  unfold bw in FP. cbn [msrp_analysis blocking_AC] in FP.
  (* the last time at which no job with a deadline up to d is left *)
  destruct (last_quiet info E before n EE OK c d (Z.to_nat rj)) as [t0 [T0 [Q N]]]. rewrite Z2Nat.id in * by (unfold rj; lia).
  (* and the last time at which no job is left *)
  set (d' := d + Base.zsum (map deadline info)).
  assert (DL : forall u, In u info -> 0 <= deadline u <= Base.zsum (map deadline info)).
  { intros u U. split; [pose proof (deadline_pos info n OK u U); lia|]. apply (zs_in deadline info u); [|exact U]. intros x X. pose proof (deadline_pos info n OK x X). lia. }
  assert (DD : d <= d') by (unfold d'; specialize (DL k0 IJ); lia).
  destruct (last_quiet info E before n EE OK c d' (Z.to_nat rj)) as [t1 [T1 [Q1 N1]]]. rewrite Z2Nat.id in * by (unfold rj; lia).
  assert (T01 : t1 <= t0).
  { destruct (Z.le_gt_cases t1 t0) as [L|L]; [exact L|exfalso]. destruct (N t1 ltac:(lia)) as [x [CX [DX RX]]]. specialize (Q1 x CX ltac:(lia) ltac:(lia)). lia. }
  assert (ANY : forall x y, on_cpu info c x -> x_rel E (fst x) (snd x) <= y -> y <= d -> due info E x <= d').
  { intros x y [u [U CU]] R Y. unfold due. rewrite U. specialize (DL u ltac:(eapply nth_error_In; exact U)). unfold deadline in DL at 1. unfold deadline in DL at 1. unfold d'. lia. }
  assert (BUSY : forall t, t0 <= t < d -> exists x, on_cpu info c x /\ pending E x t /\ due info E x <= d).
  { intros t T. destruct (Z.le_gt_cases rj t) as [L|L]; [exists j; split; [exact CJ|split; [unfold pending; fold rj; lia|lia]]|].
    destruct (N (t + 1) ltac:(lia)) as [x [CX [DX RX]]]. exists x. split; [exact CX|split; [|exact DX]]. unfold pending. lia. }
  assert (BUSY1 : forall t, t1 <= t < d -> exists x, on_cpu info c x /\ pending E x t).
  { intros t T. destruct (Z.le_gt_cases rj t) as [L|L]; [exists j; split; [exact CJ|unfold pending; fold rj; lia]|].
    destruct (N1 (t + 1) ltac:(lia)) as [x [CX [DX RX]]]. exists x. split; [exact CX|]. unfold pending. lia. }
  assert (LF : d - t1 < F).
  { destruct (Z.lt_ge_cases (d - t1) F) as [L|L]; [exact L|exfalso]. set (e := t1 + F).
    set (wj := fun u : taskinfo => filter (fun k => (t1 <=? x_rel E (ti_id u) k) && (x_rel E (ti_id u) k <? e)) (seq 0 (Z.to_nat e))).
    assert (INW : forall x u, nth_error info (fst x) = Some u -> t1 <= x_rel E (fst x) (snd x) < e -> In (snd x) (wj u) /\ ti_id u = fst x).
    { intros x u U R. destruct (wf_nth info (fst x) u (mo_wf _ _ OK) U) as [ID _]. split; [|exact ID]. unfold wj. rewrite ID. apply filter_In. pose proof (rel_low info E before n EE OK (fst x) (snd x) u U). split; [apply in_seq; lia|]. apply andb_true_iff. split; [apply Z.leb_le|apply Z.ltb_lt]; lia. }
    assert (CNT : forall u, In u info -> ti_cluster u = c -> Z.of_nat (length (wj u)) <= njobs exact AC_MODE (e - t1) u).
    { intros u U _. cbn [njobs]. unfold AC_max_num_local_jobs. pose proof (wf_id info u (mo_wf _ _ OK) U) as ID. destruct (proj2 (mo_wf _ _ OK) u U) as [P _].
      pose proof (jobs_bound (x_rel E (ti_id u)) (ti_period u) P (fun k => proj2 (lr_rel _ _ LR (ti_id u) k u ID)) (wj u) t1 (Z.to_N F)) as J.
      specialize (J ltac:(apply NoDup_filter, seq_NoDup) ltac:(intros k Hk; unfold wj in Hk; rewrite filter_In, andb_true_iff, Z.leb_le, Z.ltb_lt in Hk; unfold e in Hk; lia)).
      pose proof (ceil_ZN (Z.to_N F) (ti_period u) P) as CE. rewrite Z2N.id in CE by lia. replace (e - t1) with F by (unfold e; lia). unfold period. lia. }
    assert (EX : exists x u, nth_error info (fst x) = Some u /\ ti_cluster u = c /\ t1 <= x_rel E (fst x) (snd x) < e /\ pending E x e).
    { destruct (Z.le_gt_cases e rj) as [Le|Le].
      - destruct (N1 e ltac:(unfold e in *; lia)) as [x [CX [DX RX]]]. destruct CX as [u [U CU]]. exists x, u. split; [exact U|split; [exact CU|]]. split; [|unfold pending; lia].
        split; [|lia]. destruct (Z.le_gt_cases t1 (x_rel E (fst x) (snd x))) as [Y|Y]; [exact Y|exfalso]. specialize (Q1 x ltac:(exists u; auto) DX Y). unfold e in RX. lia.
      - exists j, k0. split; [exact K|split; [exact C|]]. unfold pending. fold rj. unfold e in *. lia. }
    destruct EX as [x [u [U [CU [RX PX]]]]]. destruct (INW x u U RX) as [IW ID].
    assert (COVER : forall y, t1 <= y < e -> exists j, x_sched E c y = Some j /\ ((exists u, In u info /\ ti_cluster u = c /\ ti_id u = fst j /\ In (snd j) (wj u)) \/ exists r a, @None (nat * creq) = Some (r, a) /\ jobof a = j /\ cr_issue a <= y < cr_end a)).
    { intros y Y. destruct (BUSY1 y ltac:(unfold e in Y; lia)) as [z [CZ PZ]]. pose proof (ee_conserving _ _ _ EE c z y CZ PZ) as NI. destruct (x_sched E c y) as [w|] eqn:S; [|congruence]. exists w. split; [reflexivity|left].
      destruct (sched_on_cpu info E before EE c w y S) as [CW PW]. unfold pending in PW.
      assert (RW : t1 <= x_rel E (fst w) (snd w)).
      { destruct (Z.le_gt_cases t1 (x_rel E (fst w) (snd w))) as [X|X]; [exact X|exfalso]. specialize (Q1 w CW (ANY w y CW ltac:(lia) ltac:(unfold e in Y; lia)) X). lia. }
      destruct CW as [uw [UW CW]]. destruct (INW w uw UW ltac:(lia)) as [IWw IDw]. exists uw. split; [eapply nth_error_In; exact UW|auto]. }
    pose proof (V_plausible info E n LR FO OK c AC_MODE t1 e wj None ltac:(unfold e; lia) (ontime e ltac:(unfold e; lia)) CNT I COVER) as VP.
    pose proof (window_length info E n LR FO OK c AC_MODE t1 e wj None ltac:(unfold e; lia) I COVER) as WL.
    pose proof (work_sum t1 e wj u (snd x) (njobs exact AC_MODE (e - t1)) ltac:(unfold e; lia) CNT ltac:(eapply nth_error_In; exact U) CU IW ltac:(rewrite ID; destruct x; exact PX)) as WS.
    pose proof (solve_bounds info n solver OK FIT c AC_MODE (e - t1) _ VP (BOUND AC_MODE (e - t1) ltac:(unfold e; lia))) as SB. replace (e - t1) with F in * by (unfold e; lia).
    rewrite <- FP in WL at 1. rewrite ac_sum in WL. cbn [njobs] in WS. lia. }
  (* the demand of the window that ends with the missed deadline *)
  set (L := d - t0). assert (LM : min_deadline info c <= L) by (pose proof (min_deadline_le info c k0 IJ C); unfold L; lia).
  set (wj := wjobs E d t0).
  assert (INW : forall x u, nth_error info (fst x) = Some u -> ti_cluster u = c -> t0 <= x_rel E (fst x) (snd x) -> due info E x <= d -> In (snd x) (wj u) /\ ti_id u = fst x).
  { intros x u U CU R DX. destruct (in_wlist info E before n EE OK c d t0 x u U CU R DX) as [IW ID]. split; [|exact ID]. unfold wlist in IW. apply in_concat in IW. destruct IW as [l [L1 L2]]. apply in_map_iff in L1. destruct L1 as [v [<- _]]. apply in_map_iff in L2. destruct L2 as [k' [EQ K']]. inversion EQ; subst v k'. exact K'. }
  assert (CNT : forall u, In u info -> ti_cluster u = c -> Z.of_nat (length (wj u)) <= njobs exact PDC_MODE (d - t0) u).
  { intros u U _. cbn [njobs]. pose proof (wjobs_length info E before n EE OK d t0 u U) as W. rewrite nj_alt. unfold wj. fold (deadline u) in W. fold (period u) in W. pose proof (period_pos info n OK u U) as PP. destruct (Z.ltb_spec (d - t0) (deadline u)) as [X|X]; [lia|].
    replace (d - t0 + period u - deadline u) with (d - t0 - deadline u + 1 * period u) by lia. rewrite Z.div_add by lia. lia. }
  destruct (INW j k0 K C ltac:(fold rj; lia) ltac:(lia)) as [IWJ _].
  pose proof (work_sum t0 d wj k0 (snd j) (njobs exact PDC_MODE (d - t0)) ltac:(lia) CNT IJ C IWJ ltac:(rewrite IDJ; destruct j; unfold pending; cbn [fst snd] in *; fold rj; unfold rj in *; cbn [fst snd] in *; lia)) as WS.
  assert (BOTH : forall blk : option (nat * creq), (match blk with None => True | Some (r, a) => PDC_MODE = PDC_MODE /\ In a (x_tr E r) /\ global_resource info r /\ exists u, nth_error info (cr_task a) = Some u /\ ti_cluster u = c /\ d - t0 < deadline u end) ->
    (forall y, t0 <= y < d -> exists j, x_sched E c y = Some j /\ ((exists u, In u info /\ ti_cluster u = c /\ ti_id u = fst j /\ In (snd j) (wj u)) \/ exists r a, blk = Some (r, a) /\ jobof a = j /\ cr_issue a <= y < cr_end a)) -> False).
  { intros blk BLK COVER.
    pose proof (V_plausible info E n LR FO OK c PDC_MODE t0 d wj blk ltac:(lia) (ontime d ltac:(lia)) CNT BLK COVER) as VP.
    pose proof (window_length info E n LR FO OK c PDC_MODE t0 d wj blk ltac:(lia) BLK COVER) as WL.
    pose proof (COV L _ ltac:(unfold L; lia) (ex_intro _ _ (conj VP eq_refl))) as CL. rewrite dbf_sum in CL. cbn [njobs] in WS. fold L in WL, WS. lia. }
  assert (COVER : forall y, t0 <= y < d -> exists j', x_sched E c y = Some j' /\ (d < due info E j' \/ exists u, In u info /\ ti_cluster u = c /\ ti_id u = fst j' /\ In (snd j') (wj u))).
  { intros y Y. destruct (BUSY y Y) as [z [CZ [PZ _]]]. pose proof (ee_conserving _ _ _ EE c z y CZ PZ) as NI. destruct (x_sched E c y) as [w|] eqn:S; [|congruence]. exists w. split; [reflexivity|].
    destruct (Z.lt_ge_cases d (due info E w)) as [LD|LD]; [left; exact LD|right]. destruct (sched_on_cpu info E before EE c w y S) as [CW PW].
    pose proof (in_window info E c t0 d Q w y ltac:(lia) CW PW LD) as RW. destruct CW as [uw [UW CW]]. destruct (INW w uw UW CW RW LD) as [IWw IDw]. exists uw. split; [eapply nth_error_In; exact UW|auto]. }
  destruct (Nat.eq_dec (count (intr info E c d) t0 (Z.to_nat (d - t0))) 0) as [Z0|NZ].
  - apply (BOTH None I). intros y Y. destruct (COVER y Y) as [w [S [H|H]]]; exists w; (split; [exact S|]); [exfalso|left; exact H].
    assert (X : intr info E c d y = true) by (unfold intr; rewrite S; apply Z.ltb_lt; exact H). pose proof (count_one (intr info E c d) (Z.to_nat (d - t0)) t0 y ltac:(lia) X). lia.
  - destruct (count_pos (intr info E c d) (Z.to_nat (d - t0)) t0 ltac:(lia)) as [y0 [Y0 I0]]. unfold intr in I0. destruct (x_sched E c y0) as [w0|] eqn:S0; [|discriminate]. apply Z.ltb_lt in I0.
    destruct (intrusion info E before n EE OK c t0 d Q BUSY y0 w0 ltac:(lia) S0 I0) as [r [a [J0 [_ IN]]]].
    apply (BOTH (Some (r, a))).
    + split; [reflexivity|]. pose proof IN as [IA [CA [TA [DA GA]]]]. split; [exact IA|]. destruct CA as [u [U CU]]. unfold jobof in U. cbn [fst] in U. pose proof (intruder_deadline info E before EE c t0 d r a u IN U) as ID. fold (deadline u) in ID. split; [|exists u; auto].
      destruct GA as [G|[NG [p [v [CP [V [CV [PV DV]]]]]]]]; [exact G|exfalso]. destruct CP as [[x [UX PX]] _].
      assert (UU : uses info r u). { destruct (lr_spec _ _ LR r a IA) as [u' [q [U' [Hq [RQ _]]]]]. rewrite U in U'. inversion U'; subst u'. split; [eapply nth_error_In; exact U|exists q; auto]. }
      pose proof (LOCAL r x u NG UX UU) as SAME. unfold deadline in ID. pose proof (mo_levels _ _ OK v x V (proj1 UX) ltac:(lia)). lia.
    + intros y Y. destruct (COVER y Y) as [w [S [H|H]]]; exists w; (split; [exact S|]); [right|left; exact H].
      destruct (intrusion info E before n EE OK c t0 d Q BUSY y w Y S H) as [r' [a' [J' [E' IN']]]]. destruct (one_intruder info E before n EE OK c t0 d r a r' a' IN IN') as [-> ->]. exists r', a'. destruct IN' as [_ [_ [TA _]]]. repeat split; auto; lia.
Qed.
End Meet.
