(** Safety of the classic MSRP bounds under fixed priorities. *)
From Coq Require Import NArith ZArith QArith List Bool Lia Arith Permutation.
From Verif Require Import ModelLocking SpecLocking SpecLP SpecSpinFP SpecSpinEDF SpecMSRPFP ProofSpin ProofLPSpin ProofSpinCount ProofSpinFP ProofSpinRTA ProofLockRules.
Import ListNotations.
Open Scope Z_scope.

Lemma spin_lock_rules info E : spin_execution info E -> lock_rules info E.
Proof. intros SE. constructor; apply SE. Qed.

Section FP.
Variables (info : list taskinfo) (E : execution) (n : nat).
Hypothesis WF : wf_info info.
Hypothesis DP : distinct_priorities info.
Hypothesis SE : spin_execution info E.
Hypothesis FI : fifo_order info E.
Hypothesis CL : forall t, In t info -> (ti_cluster t < n)%nat.
Hypothesis CO : forall t, In t info -> (1 <= ti_cost t)%N.
Let LR := spin_lock_rules info E SE.

Definition noresp (t : taskinfo) : taskinfo := TI (ti_id t) (ti_prio t) (ti_period t) (ti_deadline t) 0 (ti_cluster t) (ti_cost t) (ti_requests t).

(** Time at which the processor runs a job of lower priority. *)
Definition lowrun (c : nat) (p : N) (t : Z) : bool :=
  match x_sched E c t with
  | Some j => match nth_error info (fst j) with Some k => (p <? ti_prio k)%N | None => true end
  | None => true
  end.

Definition lowrun_in (b : creq) (c : nat) (p : N) (t : Z) : bool := lowrun c p t && runs E info (jobof b) t.

Lemma low_bound i ti ts m : nth_error info i = Some ti -> quiet info E (ti_cluster ti) (ti_prio ti) ts -> busy info E (ti_cluster ti) (ti_prio ti) ts (ts + Z.of_nat m) ->
  count (lowrun (ti_cluster ti) (ti_prio ti)) ts m = O \/ exists v, fp_blocker info n ti v /\ Z.of_nat (count (lowrun (ti_cluster ti) (ti_prio ti)) ts m) <= Z.of_N v.
Proof.
  intros HI HQ HB. set (c := ti_cluster ti) in *. set (p := ti_prio ti) in *.
  destruct (Nat.eq_dec (count (lowrun c p) ts m) 0) as [Z0|NZ]; [left; exact Z0|right].
  assert (BE : forall t, ts <= t < ts + Z.of_nat m -> lowrun c p t = true -> exists r b, blocker info (noresp ti) E ts r b /\ x_sched E c t = Some (jobof b) /\ cr_issue b < t < cr_end b).
  { intros t T L. destruct (HB t T) as [x [k [u [U [C [P PE]]]]]]. destruct (se_priority _ _ SE (x, k) u t U PE) as [j [S _]]. rewrite C in S. unfold lowrun in L. rewrite S in L.
    destruct (blocker_exists info (noresp ti) E ts m SE ltac:(cbn; lia) HB j t T S L) as [r [b [B [J TB]]]]. exists r, b. split; [exact B|split; [congruence|exact TB]]. }
  assert (PO : (0 < count (lowrun c p) ts m)%nat) by lia. destruct (count_pos _ _ _ PO) as [t0 [T0 L0]]. destruct (BE t0 T0 L0) as [r [b [B [S0 TB0]]]].
  assert (IN : forall t, ts <= t < ts + Z.of_nat m -> lowrun c p t = true -> x_sched E c t = Some (jobof b) /\ cr_issue b < t < cr_end b).
  { intros t T L. destruct (BE t T L) as [r' [b' [B' [S' TB']]]]. destruct (blocker_unique info (noresp ti) E ts m SE ltac:(cbn; lia) r b r' b' B B') as [_ <-]. auto. }
  destruct B as [[BI BR] [BL [[k [K KC]] BT]]]. cbn [noresp ti_cluster ti_prio] in *. fold c in KC. fold p in BR.
  assert (KP : (p < ti_prio k)%N) by (unfold low in BL; cbn [fst jobof] in BL; rewrite K in BL; apply N.ltb_lt; exact BL).
  assert (KI : In k info) by (eapply nth_error_In; exact K). destruct (se_times _ _ SE r b BI) as [TB1 TB2].
  assert (LE : (count (lowrun c p) ts m <= count (runs E info (jobof b)) ts m)%nat).
  { apply count_le. intros t T L. destruct (IN t T L) as [S _]. apply (runs_iff E info (jobof b) t k K). rewrite KC. exact S. }
  assert (RW : forall s e, s <= e -> (forall t, ts <= t < ts + Z.of_nat m -> lowrun c p t = true -> s <= t < e) -> (count (lowrun c p) ts m <= count (runs E info (jobof b)) s (Z.to_nat (e - s)))%nat).
  { intros s e SEE H. etransitivity; [|apply (count_le (lowrun_in b c p) _ _ s)].
    - etransitivity; [|apply (count_window (lowrun_in b c p) ts m s e SEE)].
      + apply count_le. intros t T L. unfold lowrun_in. rewrite L. cbn. destruct (IN t T L) as [S _]. apply (runs_iff E info (jobof b) t k K). rewrite KC. exact S.
      + intros t T L. apply andb_true_iff in L. apply H; [exact T|apply L].
    - intros t _ L. apply andb_true_iff in L. apply L. }
  destruct BR as [G|[G [p' [CE PP]]]].
  - destruct (section_length info E LR r b BI G) as [t' [q [T' [Q [QR LEN]]]]]. rewrite K in T'. injection T' as <-.
    exists (fifo_wait info n c (q_res q) + q_len q)%N. split.
    + exists k, q. rewrite QR. repeat (split; [assumption|]). left. split; [exact G|reflexivity].
    + pose proof (fifo_wait_bound info E LR FI n CL r b k BI G K) as FW. rewrite KC in FW. rewrite QR.
      pose proof (RW (cr_issue b) (cr_end b) ltac:(lia) ltac:(intros t T L; destruct (IN t T L); lia)) as X. pose proof (count_le_n (runs E info (jobof b)) (Z.to_nat (cr_end b - cr_issue b)) (cr_issue b)). lia.
  - destruct (se_spec _ _ SE r b BI) as [t' [q [T' [Q [QR LEN]]]]]. rewrite K in T'. injection T' as <-. destruct CE as [[u [U UP]] _].
    exists (q_len q). split.
    + exists k, q. rewrite QR. repeat (split; [assumption|]). right. split; [exact G|split; [reflexivity|]]. exists u. split; [exact U|lia].
    + rewrite (se_local _ _ SE r b BI G) in LEN. pose proof (RW (cr_issue b) (cr_end b) ltac:(lia) ltac:(intros t T L; destruct (IN t T L); lia)) as X. lia.
Qed.

Definition cjobs (ts : Z) (m : nat) (l : list taskinfo) : list (taskinfo * nat) := concat (map (fun t => map (pair t) (jobs_in E ts m (ti_id t))) l).

Lemma inflated_demand (l : list taskinfo) ts m R : (forall t, In t l -> In t info) -> Z.of_nat m <= Z.of_N R ->
  Z.of_nat (nsum (fun s : taskinfo * nat => N.to_nat (inflated info n (fst s))) (cjobs ts m l)) <=
  fold_right Z.add 0 (map (fun h => (Z.of_N R + Z.of_N (ti_period h) - 1) / Z.of_N (ti_period h) * Z.of_N (inflated info n h)) l).
Proof.
  intros H L. unfold cjobs. rewrite nsum_concat. induction l as [|t l IH]; [cbn; lia|]. cbn [nsum fold_right map]. fold (nsum (fun b => nsum (fun s : taskinfo * nat => N.to_nat (inflated info n (fst s))) (map (pair b) (jobs_in E ts m (ti_id b)))) l).
  specialize (IH (fun x Hx => H x (or_intror Hx))). specialize (H t (or_introl eq_refl)).
  assert (C : (nsum (fun s : taskinfo * nat => N.to_nat (inflated info n (fst s))) (map (pair t) (jobs_in E ts m (ti_id t))) <= length (map (pair t) (jobs_in E ts m (ti_id t))) * N.to_nat (inflated info n t))%nat).
  { apply nsum_const. intros s Hs. apply in_map_iff in Hs. destruct Hs as [k [<- _]]. cbn. lia. }
  rewrite map_length in C. pose proof (wf_id info t WF H) as X. pose proof (jobs_in_length info E WF SE ts m (ti_id t) t R X L) as J.
  pose proof (ceil_agrees R (ti_period t) (proj1 (proj2 WF t H))) as Q.
  assert (M : Z.of_nat (length (jobs_in E ts m (ti_id t))) * Z.of_N (inflated info n t) <= (Z.of_N R + Z.of_N (ti_period t) - 1) / Z.of_N (ti_period t) * Z.of_N (inflated info n t)) by (apply Z.mul_le_mono_nonneg_r; lia).
  nia.
Qed.

Theorem fp_criterion_safe i k ti R : nth_error info i = Some ti -> fp_criterion info n ti R -> x_comp E i k <= x_rel E i k + R.
Proof.
  intros HI [RT [DE BL]]. destruct (Z.le_gt_cases (x_comp E i k) (x_rel E i k + R)) as [L|L]; [exact L|exfalso].
  set (c := ti_cluster ti) in *. set (p := ti_prio ti) in *. assert (TI : In ti info) by (eapply nth_error_In; exact HI).
  pose proof (rel_lower info E WF SE i k ti HI) as RL.
  assert (R0 : 0 < R).
  { unfold fp_demand in DE. pose proof (CO ti TI). assert (ti_cost ti <= inflated info n ti)%N by (unfold inflated; lia).
    assert (G : forall l, (forall h, In h l -> In h info) -> forall r, 0 <= r -> 0 <= fold_right Z.add 0 (map (fun h => (r + Z.of_N (ti_period h) - 1) / Z.of_N (ti_period h) * Z.of_N (inflated info n h)) l)).
    { induction l as [|h l IH]; intros Hl r Hr; [cbn; lia|]. cbn [map fold_right]. specialize (IH (fun y Hy => Hl y (or_intror Hy)) r Hr). pose proof (proj1 (proj2 WF h (Hl h (or_introl eq_refl)))).
      assert (0 <= (r + Z.of_N (ti_period h) - 1) / Z.of_N (ti_period h)) by (apply Z.div_pos; lia). nia. }
    specialize (G (higher info ti) ltac:(intros h Hh; apply filter_In in Hh; apply Hh) R ltac:(lia)). lia. }
  destruct (last_quiet info E WF SE c p (Z.to_nat (x_rel E i k))) as [ts [T1 [Q T2]]]. replace (Z.of_nat (Z.to_nat (x_rel E i k))) with (x_rel E i k) in * by lia.
  set (m := Z.to_nat R). assert (Hm : Z.of_nat m = R) by (unfold m; lia).
  assert (BU : busy info E c p ts (ts + Z.of_nat m)).
  { intros t T. destruct (Z.lt_ge_cases t (x_rel E i k)) as [X|X].
    - destruct (T2 (t + 1) ltac:(lia)) as [x [k' Y]]. apply carried_iff in Y. destruct Y as [u [U [UC [UP Y]]]]. exists x, k', u. repeat split; [exact U|exact UC|exact UP|cbn; lia|cbn; lia].
    - exists i, k, ti. repeat split; [exact HI|unfold p; lia|cbn; lia|cbn; lia]. }
  pose proof (low_bound i ti ts m HI Q BU) as LOW. fold c p in LOW.
  (* the job that is not finished at the end *)
  assert (UF : exists x k' u, nth_error info x = Some u /\ ti_cluster u = c /\ (ti_prio u <= p)%N /\ ts <= x_rel E x k' < ts + Z.of_nat m /\ ts + Z.of_nat m < x_comp E x k').
  { assert (Y : exists x k' u, nth_error info x = Some u /\ ti_cluster u = c /\ (ti_prio u <= p)%N /\ x_rel E x k' < ts + Z.of_nat m < x_comp E x k').
    { destruct (Z.lt_ge_cases (x_rel E i k) (ts + Z.of_nat m)) as [X|X].
      - exists i, k, ti. repeat split; [exact HI|unfold p; lia|lia|lia].
      - destruct (T2 (ts + Z.of_nat m) ltac:(lia)) as [x [k' Y]]. apply carried_iff in Y. destruct Y as [u Y]. exists x, k', u. exact Y. }
    destruct Y as [x [k' [u [U [UC [UP Y]]]]]]. exists x, k', u. repeat (split; [assumption|]). split; [|lia]. split; [|lia].
    destruct (Z.lt_ge_cases (x_rel E x k') ts) as [X|X]; [|exact X]. pose proof (Q x k' u U UC UP X). lia. }
  set (tl := ti :: higher info ti). set (js := cjobs ts m tl).
  assert (TL : forall t, In t tl -> In t info). { intros t [<-|H]; [exact TI|apply filter_In in H; apply H]. }
  assert (JS : forall x k' u, nth_error info x = Some u -> ti_cluster u = c -> (ti_prio u <= p)%N -> ts <= x_rel E x k' < ts + Z.of_nat m -> In (u, k') js).
  { intros x k' u U UC UP T. destruct (wf_nth info x u WF U) as [ID IN]. apply in_concat. exists (map (pair u) (jobs_in E ts m (ti_id u))). split.
    - apply in_map_iff. exists u. split; [reflexivity|]. destruct (N.eq_dec (ti_prio u) p) as [EP|NP].
      + left. apply DP; [exact TI|exact IN|symmetry; exact UC|symmetry; exact EP].
      + right. apply filter_In. split; [exact IN|]. fold c p. rewrite UC, Nat.eqb_refl. cbn. apply N.ltb_lt. lia.
    - apply in_map. rewrite ID. apply (in_jobs_in info E WF SE ts m x k' u U). exact T. }
  assert (RUN : (count (fun t => negb (lowrun c p t)) ts m <= nsum (fun s => count (runs E info (ti_id (fst s), snd s)) ts m) js)%nat).
  { apply count_cover. intros t T NL. apply negb_true_iff in NL. unfold lowrun in NL. destruct (x_sched E c t) as [[x k']|] eqn:S; [|discriminate]. cbn [fst snd] in NL.
    assert (LW : low info (noresp ti) (x, k') = false) by (unfold low; cbn [fst]; exact NL).
    destruct (job_in_window info (noresp ti) E ts m SE ltac:(cbn; lia) Q t (x, k') T S LW) as [th [K [KC [KP [KR KPE]]]]]. cbn [fst snd noresp ti_cluster ti_prio] in *. fold c in KC. fold p in KP.
    exists (th, k'). split; [apply (JS x k' th K KC KP); lia|]. cbn [fst snd]. rewrite (proj1 (wf_nth info x th WF K)). apply (runs_iff E info (x, k') t th K). rewrite KC. exact S. }
  assert (DEM : (nsum (fun s => count (runs E info (ti_id (fst s), snd s)) ts m) js < nsum (fun s : taskinfo * nat => N.to_nat (inflated info n (fst s))) js)%nat).
  { destruct UF as [x [k' [u [U [UC [UP [UR UE]]]]]]]. apply (nsum_lt _ _ js (u, k')).
    - intros [th kk] IN. cbn [fst snd]. apply in_concat in IN. destruct IN as [l [IN1 IN2]]. apply in_map_iff in IN1. destruct IN1 as [t' [<- IN1]]. apply in_map_iff in IN2. destruct IN2 as [k2 [X2 IN2]]. injection X2 as -> ->.
      pose proof (runs_total info E LR FI n CL (ti_id th) kk th ts m (wf_id info th WF (TL th IN1)) (CO th (TL th IN1))). lia.
    - apply (JS x k' u U UC UP UR).
    - cbn [fst snd]. rewrite (proj1 (wf_nth info x u WF U)). pose proof (runs_before info E LR FI n CL x k' u (ts + Z.of_nat m) ts m U ltac:(unfold pending; cbn [fst snd]; lia) ltac:(lia)). lia. }
  pose proof (inflated_demand tl ts m (Z.to_N R) TL ltac:(lia)) as DB. fold js in DB. unfold tl in DB. cbn [map fold_right] in DB. rewrite Z2N.id in DB by lia.
  assert (OWN : (R + Z.of_N (ti_period ti) - 1) / Z.of_N (ti_period ti) <= 1).
  { assert (0 < ti_period ti)%N by (apply WF; exact TI). apply Z.lt_succ_r. apply Z.div_lt_upper_bound; [lia|]. lia. }
  assert (OWN2 : (R + Z.of_N (ti_period ti) - 1) / Z.of_N (ti_period ti) * Z.of_N (inflated info n ti) <= Z.of_N (inflated info n ti)) by nia.
  pose proof (count_split (lowrun c p) m ts) as CS. unfold fp_demand in DE, BL. destruct LOW as [Z0|[v [V1 V2]]]; [lia|]. specialize (BL v V1). lia.
Qed.
End FP.
