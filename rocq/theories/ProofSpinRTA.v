(** From the time lost in busy windows to response times. *)
From Coq Require Import NArith ZArith QArith List Bool Lia Arith.
From Verif Require Import ModelLocking SpecLocking ModelLP ModelLPSpin SpecLP SpecSpinFP ProofSpin ProofLP ProofLPSpin ProofSpinCount ProofSpinFP.
Import ListNotations.
Open Scope Z_scope.

Lemma nsum_lt {A} (f g : A -> nat) l a : (forall x, In x l -> (f x <= g x)%nat) -> In a l -> (f a < g a)%nat -> (nsum f l < nsum g l)%nat.
Proof.
  induction l as [|x r IH]; intros H1 H2 H3; [destruct H2|]. cbn [nsum fold_right]. fold (nsum f r) (nsum g r).
  assert (R : (nsum f r <= nsum g r)%nat) by (apply nsum_le; intros y Hy; apply H1; right; exact Hy). specialize (H1 x (or_introl eq_refl)) as HX.
  destruct H2 as [->|H2]; [lia|]. specialize (IH (fun y Hy => H1 y (or_intror Hy)) H2 H3). lia.
Qed.

Lemma ceil_agrees a b : (0 < b)%N -> Z.of_N (divide_with_ceil a b) <= (Z.of_N a + Z.of_N b - 1) / Z.of_N b.
Proof.
  intros H. apply Z.div_le_lower_bound; [lia|]. destruct (N.eq_dec (divide_with_ceil a b) 0) as [->|N0]; [lia|].
  assert (X : (divide_with_ceil a b - 1 < divide_with_ceil a b)%N) by lia. apply (divide_with_ceil_spec a b H) in X. nia.
Qed.

Section RTA.
Variables (info : list taskinfo) (E : execution) (B : nat -> Z).
Hypothesis WF : wf_info info.
Hypothesis DP : distinct_priorities info.
Hypothesis SE : spin_execution info E.
Hypothesis OK : response_times_ok info B.
Hypothesis BLK : forall i ti ts n d, nth_error info i = Some ti -> Z.of_nat n <= Z.of_N (ti_response ti) ->
  quiet info E (ti_cluster ti) (ti_prio ti) ts -> busy info E (ti_cluster ti) (ti_prio ti) ts (ts + Z.of_nat n) -> on_time info E d -> ts + Z.of_nat n <= d ->
  Z.of_nat (count (lost info E (ti_cluster ti) (ti_prio ti)) ts n) <= B i.

Lemma rel_lower x k tx : nth_error info x = Some tx -> Z.of_nat k <= x_rel E x k.
Proof.
  intros X. assert (P : (0 < ti_period tx)%N) by (apply WF; eapply nth_error_In; exact X).
  pose proof (rel_spacing (x_rel E x) (ti_period tx) P (fun k => proj2 (se_rel _ _ SE x k tx X)) 0 k) as S. cbn [Nat.add] in S. pose proof (proj1 (se_rel _ _ SE x 0 tx X)). nia.
Qed.

(** the jobs that a time is not quiet for *)
Definition carried (c : nat) (p : N) (t : Z) (s : nat * nat) : bool :=
  match nth_error info (fst s) with
  | Some u => Nat.eqb (ti_cluster u) c && (ti_prio u <=? p)%N && ((x_rel E (fst s) (snd s) <? t) && (t <? x_comp E (fst s) (snd s)))
  | None => false
  end.

Lemma carried_iff c p t i k : carried c p t (i, k) = true <-> exists u, nth_error info i = Some u /\ ti_cluster u = c /\ (ti_prio u <= p)%N /\ x_rel E i k < t < x_comp E i k.
Proof.
  unfold carried; cbn [fst snd]. destruct (nth_error info i) as [u|].
  - rewrite !andb_true_iff, Nat.eqb_eq, N.leb_le, !Z.ltb_lt. split; [intros [[H1 H2] H3]; exists u; auto|]. intros [u' [X H]]. injection X as <-. tauto.
  - split; [discriminate|]. intros [u [X _]]. discriminate.
Qed.

Lemma quiet_dec c p t : quiet info E c p t \/ exists i k, carried c p t (i, k) = true.
Proof.
  destruct (existsb (carried c p t) (list_prod (seq 0 (length info)) (seq 0 (Z.to_nat t)))) eqn:X.
  - right. apply existsb_exists in X. destruct X as [[i k] [_ X]]. exists i, k. exact X.
  - left. intros i k u U C P R. destruct (Z.le_gt_cases (x_comp E i k) t) as [H|H]; [exact H|exfalso].
    assert (Y : existsb (carried c p t) (list_prod (seq 0 (length info)) (seq 0 (Z.to_nat t))) = true); [|congruence].
    apply existsb_exists. exists (i, k). split; [|apply carried_iff; exists u; repeat split; [exact U|exact C|exact P|lia|lia]].
    apply in_prod; apply in_seq; [split; [lia|]; cbn; apply nth_error_Some; congruence|]. pose proof (rel_lower i k u U). lia.
Qed.

(** the last quiet time *)
Lemma last_quiet c p : forall m, exists ts, ts <= Z.of_nat m /\ quiet info E c p ts /\ forall t, ts < t <= Z.of_nat m -> exists i k, carried c p t (i, k) = true.
Proof.
  induction m as [|m [ts [H1 [H2 H3]]]].
  - exists 0. split; [lia|]. split; [|intros; lia]. intros i k u U _ _ R. pose proof (rel_lower i k u U). lia.
  - destruct (quiet_dec c p (Z.of_nat (S m))) as [Q|C].
    + exists (Z.of_nat (S m)). split; [lia|]. split; [exact Q|]. intros; lia.
    + exists ts. split; [lia|]. split; [exact H2|]. intros t T. destruct (Z.eq_dec t (Z.of_nat (S m))) as [->|N]; [exact C|]. apply H3. lia.
Qed.

Lemma works_pending j t : works E info j t = true -> pending E j t.
Proof.
  intros W. apply andb_true_iff in W. destruct W as [R _]. unfold runs in R. destruct (nth_error info (fst j)) as [k|]; [|discriminate].
  destruct (x_sched E (ti_cluster k) t) as [j'|] eqn:S; [|discriminate]. apply andb_true_iff in R. rewrite !Nat.eqb_eq in R. destruct j as [a b], j' as [a' b']; cbn in R. destruct R as [-> ->].
  apply (se_sched _ _ SE _ _ _ S).
Qed.

Lemma work_le_cost x k tx m : nth_error info x = Some tx -> Z.of_nat (count (works E info (x, k)) (x_rel E x k) m) <= Z.of_N (ti_cost tx).
Proof.
  intros X. induction m as [|m IH]; [cbn; lia|]. replace (S m) with (m + 1)%nat by lia. rewrite count_app. cbn [count].
  destruct (works E info (x, k) (x_rel E x k + Z.of_nat m)) eqn:W; [|lia]. apply works_pending in W.
  pose proof (se_work _ _ SE x k tx _ X W) as L. replace (Z.to_nat (x_rel E x k + Z.of_nat m - x_rel E x k)) with m in L by lia. lia.
Qed.

Lemma window_work x k a n : a <= x_rel E x k -> (count (works E info (x, k)) a n <= count (works E info (x, k)) (x_rel E x k) (Z.to_nat (a + Z.of_nat n - x_rel E x k)))%nat.
Proof.
  intros H. destruct (Z.le_gt_cases (a + Z.of_nat n) (x_rel E x k)) as [L|L].
  - rewrite count_false; [lia|]. intros t T. destruct (works E info (x, k) t) eqn:W; [|reflexivity]. apply works_pending in W. unfold pending in W; cbn in W. lia.
  - replace (Z.to_nat (a + Z.of_nat n - x_rel E x k)) with (Z.to_nat ((a + Z.of_nat n) - x_rel E x k)) by lia. apply count_window; [lia|].
    intros t T W. apply works_pending in W. unfold pending in W; cbn in W. lia.
Qed.

Definition jobs_in (ts : Z) (n : nat) (x : nat) : list nat := filter (fun k => (ts <=? x_rel E x k) && (x_rel E x k <? ts + Z.of_nat n)) (seq 0 (Z.to_nat (ts + Z.of_nat n))).

Lemma in_jobs_in ts n x k tx : nth_error info x = Some tx -> (In k (jobs_in ts n x) <-> ts <= x_rel E x k < ts + Z.of_nat n).
Proof.
  intros X. unfold jobs_in. rewrite filter_In, andb_true_iff, Z.leb_le, Z.ltb_lt. split; [tauto|]. intros H. split; [|exact H]. apply in_seq. pose proof (rel_lower x k tx X). lia.
Qed.

Lemma jobs_in_length ts n x tx R : nth_error info x = Some tx -> Z.of_nat n <= Z.of_N R -> (N.of_nat (length (jobs_in ts n x)) <= divide_with_ceil R (ti_period tx))%N.
Proof.
  intros X L. apply (jobs_bound (x_rel E x) (ti_period tx)) with (lo := ts).
  - apply WF. eapply nth_error_In. exact X.
  - intros k. apply (se_rel _ _ SE x k tx X).
  - apply NoDup_filter, seq_NoDup.
  - intros k K. apply (in_jobs_in ts n x k tx X) in K. lia.
Qed.

Lemma demand_bound (l : list taskinfo) ts n R : (forall t, In t l -> In t info) -> Z.of_nat n <= Z.of_N R ->
  Z.of_nat (nsum (fun s : taskinfo * nat => N.to_nat (ti_cost (fst s))) (concat (map (fun t => map (pair t) (jobs_in ts n (ti_id t))) l))) <=
  fold_right Z.add 0 (map (fun h => (Z.of_N R + Z.of_N (ti_period h) - 1) / Z.of_N (ti_period h) * Z.of_N (ti_cost h)) l).
Proof.
  intros H L. rewrite nsum_concat. induction l as [|t l IH]; [cbn; lia|]. cbn [nsum fold_right map]. fold (nsum (fun b => nsum (fun s : taskinfo * nat => N.to_nat (ti_cost (fst s))) (map (pair b) (jobs_in ts n (ti_id b)))) l).
  specialize (IH (fun x Hx => H x (or_intror Hx))). specialize (H t (or_introl eq_refl)).
  assert (C : (nsum (fun s : taskinfo * nat => N.to_nat (ti_cost (fst s))) (map (pair t) (jobs_in ts n (ti_id t))) <= length (map (pair t) (jobs_in ts n (ti_id t))) * N.to_nat (ti_cost t))%nat).
  { apply nsum_const. intros s Hs. apply in_map_iff in Hs. destruct Hs as [k [<- _]]. cbn. lia. }
  rewrite map_length in C. pose proof (wf_id info t WF H) as X. pose proof (jobs_in_length ts n (ti_id t) t R X L) as J.
  pose proof (ceil_agrees R (ti_period t) (proj1 (proj2 WF t H))) as Q.
  assert (M : Z.of_nat (length (jobs_in ts n (ti_id t))) * Z.of_N (ti_cost t) <= (Z.of_N R + Z.of_N (ti_period t) - 1) / Z.of_N (ti_period t) * Z.of_N (ti_cost t)) by (apply Z.mul_le_mono_nonneg_r; lia).
  nia.
Qed.

Lemma step d : on_time info E d -> on_time info E (d + 1).
Proof.
  intros HO i k ti HI HD. destruct (Z.lt_ge_cases (x_rel E i k + Z.of_N (ti_response ti)) d) as [L|L]; [apply HO; assumption|].
  assert (D : x_rel E i k + Z.of_N (ti_response ti) = d) by lia. clear HD L. destruct (Z.le_gt_cases (x_comp E i k) (x_rel E i k + Z.of_N (ti_response ti))) as [L|L]; [exact L|exfalso].
  rewrite D in L. destruct (OK i ti HI) as [EQ [C0 RT]]. set (c := ti_cluster ti) in *. set (p := ti_prio ti) in *. set (R := ti_response ti) in *.
  pose proof (rel_lower i k ti HI) as RL.
  destruct (last_quiet c p (Z.to_nat (x_rel E i k))) as [ts [T1 [Q T2]]]. replace (Z.of_nat (Z.to_nat (x_rel E i k))) with (x_rel E i k) in * by lia.
  set (n := N.to_nat R). assert (Hn : Z.of_nat n = Z.of_N R) by (unfold n; lia).
  assert (BU : busy info E c p ts (ts + Z.of_nat n)).
  { intros t T. destruct (Z.lt_ge_cases t (x_rel E i k)) as [X|X].
    - destruct (T2 (t + 1) ltac:(lia)) as [x [k' Y]]. apply carried_iff in Y. destruct Y as [u [U [UC [UP Y]]]]. exists x, k', u. repeat split; [exact U|exact UC|exact UP|cbn; lia|cbn; lia].
    - exists i, k, ti. repeat split; [exact HI|unfold p; lia|cbn; lia|cbn; lia]. }
  pose proof (BLK i ti ts n d HI ltac:(lia) Q BU HO ltac:(lia)) as LOST. fold c p in LOST.
  (* the job that is not finished at the end *)
  assert (UF : exists x k' u, nth_error info x = Some u /\ ti_cluster u = c /\ (ti_prio u <= p)%N /\ ts <= x_rel E x k' < ts + Z.of_nat n /\ ts + Z.of_nat n < x_comp E x k').
  { assert (N0 : 0 < Z.of_N R).
    { assert (0 <= B i) by lia. assert (0 <= fold_right Z.add 0 (map (fun h => (Z.of_N R + Z.of_N (ti_period h) - 1) / Z.of_N (ti_period h) * Z.of_N (ti_cost h)) (filter (fun h => Nat.eqb (ti_cluster h) c && (ti_prio h <? p)%N) info))); [|lia].
      assert (G : forall l, (forall h, In h l -> In h info) -> 0 <= fold_right Z.add 0 (map (fun h => (Z.of_N R + Z.of_N (ti_period h) - 1) / Z.of_N (ti_period h) * Z.of_N (ti_cost h)) l)).
      { induction l as [|h l IH]; intros Hl; [cbn; lia|]. cbn [map fold_right]. specialize (IH (fun y Hy => Hl y (or_intror Hy))). pose proof (proj1 (proj2 WF h (Hl h (or_introl eq_refl)))).
        assert (0 <= (Z.of_N R + Z.of_N (ti_period h) - 1) / Z.of_N (ti_period h)) by (apply Z.div_pos; lia). nia. }
      apply G. intros h Hh. apply filter_In in Hh. apply Hh. }
    assert (Y : exists x k' u, nth_error info x = Some u /\ ti_cluster u = c /\ (ti_prio u <= p)%N /\ x_rel E x k' < ts + Z.of_nat n < x_comp E x k').
    { destruct (Z.lt_ge_cases (x_rel E i k) (ts + Z.of_nat n)) as [X|X].
      - exists i, k, ti. repeat split; [exact HI|unfold p; lia|lia|lia].
      - destruct (T2 (ts + Z.of_nat n) ltac:(lia)) as [x [k' Y]]. apply carried_iff in Y. destruct Y as [u Y]. exists x, k', u. exact Y. }
    destruct Y as [x [k' [u [U [UC [UP Y]]]]]]. exists x, k', u. repeat (split; [assumption|]). split; [|lia]. split; [|lia].
    destruct (Z.lt_ge_cases (x_rel E x k') ts) as [X|X]; [|exact X]. pose proof (Q x k' u U UC UP X). lia. }
  (* useful work *)
  set (tl := ti :: filter (fun h => Nat.eqb (ti_cluster h) c && (ti_prio h <? p)%N) info).
  set (js := concat (map (fun t => map (pair t) (jobs_in ts n (ti_id t))) tl)).
  assert (TL : forall t, In t tl -> In t info). { intros t [<-|H]; [eapply nth_error_In; exact HI|apply filter_In in H; apply H]. }
  assert (JS : forall x k' u, nth_error info x = Some u -> ti_cluster u = c -> (ti_prio u <= p)%N -> ts <= x_rel E x k' < ts + Z.of_nat n -> In (u, k') js).
  { intros x k' u U UC UP T. destruct (wf_nth info x u WF U) as [ID IN]. apply in_concat. exists (map (pair u) (jobs_in ts n (ti_id u))). split.
    - apply in_map_iff. exists u. split; [reflexivity|]. destruct (N.eq_dec (ti_prio u) p) as [EP|NP].
      + left. apply DP; [eapply nth_error_In; exact HI|exact IN|symmetry; exact UC|symmetry; exact EP].
      + right. apply filter_In. split; [exact IN|]. rewrite UC, Nat.eqb_refl. cbn. apply N.ltb_lt. lia.
    - apply in_map. rewrite ID. apply (in_jobs_in ts n x k' u U). exact T. }
  assert (WORK : (count (fun t => negb (lost info E c p t)) ts n <= nsum (fun s => count (works E info (ti_id (fst s), snd s)) ts n) js)%nat).
  { apply count_cover. intros t T NL. apply negb_true_iff in NL. unfold lost in NL. destruct (x_sched E c t) as [[x k']|] eqn:S; [|discriminate]. cbn [fst snd] in NL.
    destruct (nth_error info x) as [u|] eqn:U; [|discriminate]. apply orb_false_iff in NL. destruct NL as [NL1 NL2].
    assert (LW : low info ti (x, k') = false) by (unfold low; cbn [fst]; rewrite U; exact NL1).
    destruct (job_in_window info ti E ts n SE RT Q t (x, k') T S LW) as [th [K [KC [KP [KR KPE]]]]]. cbn [fst snd] in *. rewrite U in K. injection K as <-.
    exists (u, k'). split; [apply (JS x k' u U KC KP); lia|]. cbn [fst snd]. rewrite (proj1 (wf_nth info x u WF U)). unfold works. rewrite NL2. cbn [negb]. rewrite andb_true_r.
    apply (runs_iff E info (x, k') t u U). rewrite KC. exact S. }
  assert (DEM : (nsum (fun s => count (works E info (ti_id (fst s), snd s)) ts n) js < nsum (fun s : taskinfo * nat => N.to_nat (ti_cost (fst s))) js)%nat).
  { destruct UF as [x [k' [u [U [UC [UP [UR UE]]]]]]]. apply (nsum_lt _ _ js (u, k')).
    - intros [th kk] IN. cbn [fst snd]. apply in_concat in IN. destruct IN as [l [IN1 IN2]]. apply in_map_iff in IN1. destruct IN1 as [t' [<- IN1]]. apply in_map_iff in IN2. destruct IN2 as [k2 [X2 IN2]]. injection X2 as -> ->.
      pose proof (wf_id info th WF (TL th IN1)) as X. apply (in_jobs_in ts n (ti_id th) kk th X) in IN2.
      pose proof (window_work (ti_id th) kk ts n ltac:(lia)). pose proof (work_le_cost (ti_id th) kk th (Z.to_nat (ts + Z.of_nat n - x_rel E (ti_id th) kk)) X). lia.
    - apply (JS x k' u U UC UP UR).
    - cbn [fst snd]. rewrite (proj1 (wf_nth info x u WF U)). pose proof (window_work x k' ts n ltac:(lia)).
      assert (PE : pending E (x, k') (ts + Z.of_nat n)) by (unfold pending; cbn; lia). pose proof (se_work _ _ SE x k' u _ U PE). lia. }
  pose proof (demand_bound tl ts n R TL ltac:(lia)) as DB. fold js in DB. unfold tl in DB. cbn [map fold_right] in DB.
  assert (OWN : (Z.of_N R + Z.of_N (ti_period ti) - 1) / Z.of_N (ti_period ti) <= 1).
  { assert (0 < ti_period ti)%N by (apply WF; eapply nth_error_In; exact HI). apply Z.lt_succ_r. apply Z.div_lt_upper_bound; [lia|]. lia. }
  assert (OWN2 : (Z.of_N R + Z.of_N (ti_period ti) - 1) / Z.of_N (ti_period ti) * Z.of_N (ti_cost ti) <= Z.of_N (ti_cost ti)) by nia.
  pose proof (count_split (lost info E c p) n ts). lia.
Qed.

Theorem rta_safe : forall i k ti, nth_error info i = Some ti -> x_comp E i k <= x_rel E i k + Z.of_N (ti_response ti).
Proof.
  assert (G : forall m, on_time info E (Z.of_nat m)).
  { induction m as [|m IH]; [|replace (Z.of_nat (S m)) with (Z.of_nat m + 1) by lia; apply step; exact IH].
    intros i k ti HI H. pose proof (rel_lower i k ti HI). lia. }
  intros i k ti HI. apply (G (Z.to_nat (x_rel E i k + Z.of_N (ti_response ti) + 1)) i k ti HI). pose proof (rel_lower i k ti HI). lia.
Qed.
End RTA.

(** * The bounds *)
Lemma msrp_blocking info i ti E ts n d opt : wf_info info -> distinct_priorities info -> spin_execution info E -> fifo_order info E -> nth_error info i = Some ti ->
  Z.of_nat n <= Z.of_N (ti_response ti) -> (ti_response ti <= ti_period ti)%N -> quiet info E (ti_cluster ti) (ti_prio ti) ts ->
  busy info E (ti_cluster ti) (ti_prio ti) ts (ts + Z.of_nat n) -> on_time info E d -> ts + Z.of_nat n <= d -> optimum (msrp_lp info ti) opt ->
  Z.of_nat (count (lost info E (ti_cluster ti) (ti_prio ti)) ts n) <= lrint opt.
Proof.
  intros WF DP SE FI HI HN HR HQ HB HO HD [_ OPT]. apply lrint_mono.
  eapply Qle_trans; [apply (lost_le_objective info i ti E ts n d); assumption|]. rewrite <- msrp_objective. apply OPT. apply msrp_feasible.
  - apply (common_holds info i ti E ts n d); assumption.
  - apply (msrp_holds info i ti E ts n); assumption.
  - intros v. apply assign_range; assumption.
Qed.

Lemma baseline_blocking info i ti E ts n d opt : wf_info info -> distinct_priorities info -> spin_execution info E -> nth_error info i = Some ti ->
  Z.of_nat n <= Z.of_N (ti_response ti) -> (ti_response ti <= ti_period ti)%N -> quiet info E (ti_cluster ti) (ti_prio ti) ts ->
  busy info E (ti_cluster ti) (ti_prio ti) ts (ts + Z.of_nat n) -> on_time info E d -> ts + Z.of_nat n <= d -> optimum (baseline_lp info ti) opt ->
  Z.of_nat (count (lost info E (ti_cluster ti) (ti_prio ti)) ts n) <= lrint opt.
Proof.
  intros WF DP SE HI HN HR HQ HB HO HD [_ OPT]. apply lrint_mono.
  eapply Qle_trans; [apply (lost_le_objective info i ti E ts n d); assumption|]. rewrite <- baseline_objective. apply OPT. apply baseline_feasible.
  - apply (common_holds info i ti E ts n d); assumption.
  - intros v. apply assign_range; assumption.
Qed.
