(** No finite response-time bounds exist for an overloaded system. *)
From Coq Require Import ZArith QArith Qround Lqa List Bool Lia Permutation.
From Verif Require Import Base SpecUni SpecQPA SpecGlobal SpecTardiness ModelTasks ProofTasks ModelTardiness
  ProofGlobal ProofGELCost ProofTardiness ProofTardinessSafe ProofTardinessTop.
Import ListNotations.
Open Scope Z_scope.

(** All tasks release jobs of full cost periodically from time 0. *)
Definition periodic (ts : taskset) : jobseq :=
  JobSeq (fun i k => Z.to_nat (Z.of_nat k * t_period (nth i ts dtask))) (fun i k => Z.to_nat (Z.of_nat k * t_period (nth i ts dtask)))
         (fun i _ => Z.to_nat (t_cost (nth i ts dtask))).

Definition gel_schedule (ts : taskset) (pps : list Z) (m : nat) : gschedule :=
  key_schedule (length ts) m (periodic ts) (fun _ j => prio_point pps (periodic ts) j).

Lemma rt_nth : forall ts i, Forall rt_task ts -> rt_task (nth i ts dtask).
Proof.
  intros ts i H. destruct (Nat.lt_ge_cases i (length ts)) as [L|L].
  - rewrite Forall_forall in H. apply H, nth_In, L.
  - rewrite nth_overflow by exact L. unfold rt_task. cbn. lia.
Qed.

Lemma periodic_legal : forall ts, Forall rt_task ts -> legal_seq (map (fun cp => Promise (fst cp) (snd cp) 0) (map cp_of ts)) (periodic ts).
Proof.
  intros ts H i p E k. rewrite map_map, nth_error_map in E. destruct (nth_error ts i) as [t|] eqn:Et; [|discriminate]. inversion E; subst p. clear E.
  apply nth_error_nth with (d := dtask) in Et. pose proof (rt_nth ts i H) as [W1 W2]. cbn [periodic arr rel cst pr_cost pr_period pr_jitter fst snd cp_of].
  rewrite Et in *. nia.
Qed.

Lemma gel_schedule_ok : forall ts pps m, Forall rt_task ts ->
  gvalid (length ts) m (periodic ts) (gel_schedule ts pps m) /\ gel pps (length ts) m (periodic ts) (gel_schedule ts pps m).
Proof.
  intros ts pps m H. split; [apply key_schedule_valid|]. intros t j Hj Hr Hn. apply (key_schedule_policy (length ts) m (periodic ts) (fun _ j0 => prio_point pps (periodic ts) j0)); try assumption.
  intros h k _. cbn. pose proof (rt_nth ts h H) as [_ W]. nia.
Qed.

(** ** Work completed *)
Lemma runs_le : forall n m s sc L t, gvalid n m s sc -> NoDup L ->
  (length (filter (fun j => gruns sc j t) L) <= m)%nat.
Proof.
  intros n m s sc L t Hv HL. destruct (Hv t) as [H1 [H2 _]]. eapply Nat.le_trans; [|exact H1]. apply NoDup_incl_length; [apply NoDup_filter; exact HL|].
  intros j Hj. apply filter_In in Hj. apply gruns_iff. apply Hj.
Qed.

Lemma service_le : forall sc L c t, (forall u, (length (filter (fun j => gruns sc j u) L) <= c)%nat) ->
  zsum (map (fun j => gservice sc j t) L) <= Z.of_nat c * Z.of_nat t.
Proof.
  intros sc L c t H. induction t as [|t IH].
  - assert (zsum (map (fun j => gservice sc j 0) L) = 0) by (clear; induction L; [reflexivity|cbn [map zsum]; rewrite IHL; reflexivity]). lia.
  - assert (E : zsum (map (fun j => gservice sc j (S t)) L) = zsum (map (fun j => gservice sc j t) L) + Z.of_nat (length (filter (fun j => gruns sc j t) L))).
    { clear. induction L as [|j L IHL]; [reflexivity|]. cbn [map zsum filter]. rewrite IHL, gservice_step.
      destruct (gruns sc j t); cbn [b2z length]; lia. }
    rewrite E. specialize (H t). nia.
Qed.

Lemma completed_sum : forall s sc t (ki : nat -> nat) l,
  (forall i k, In i l -> (k < ki i)%nat -> gcompleted s sc (i, k) t) ->
  zsum (map (fun i => sumf (fun k => Z.of_nat (cst s i k)) (ki i)) l) <=
  zsum (map (fun j => gservice sc j t) (flat_map (fun i => map (fun k => (i, k)) (seq 0 (ki i))) l)).
Proof.
  induction l as [|i l IH]; intros H; [cbn; lia|]. cbn [map zsum flat_map]. rewrite map_app, zsum_app.
  specialize (IH (fun i' k Hi => H i' k (or_intror Hi))).
  enough (sumf (fun k => Z.of_nat (cst s i k)) (ki i) <= zsum (map (fun j => gservice sc j t) (map (fun k => (i, k)) (seq 0 (ki i))))) as G0 by (apply Z.add_le_mono; [exact G0|exact IH]).
  specialize (H i). assert (G : forall q, (q <= ki i)%nat -> sumf (fun k => Z.of_nat (cst s i k)) q <= zsum (map (fun j => gservice sc j t) (map (fun k => (i, k)) (seq 0 q)))).
  { induction q as [|q IHq]; intros Hq; [cbn; lia|]. rewrite seq_S, !map_app, zsum_app. cbn [sumf map zsum Nat.add].
    specialize (IHq ltac:(lia)). specialize (H q (or_introl eq_refl) ltac:(lia)). unfold gcompleted in H. cbn [fst snd] in H. rewrite Z.add_0_r. apply Z.add_le_mono; [exact IHq|exact H]. }
  apply G. lia.
Qed.

Lemma jobs_nodup : forall (ki : nat -> nat) l, NoDup l -> NoDup (flat_map (fun i => map (fun k => (i, k)) (seq 0 (ki i))) l).
Proof.
  induction l as [|i l IH]; intros H; [constructor|]. inversion_clear H as [|? ? H1 H2]. cbn [flat_map].
  assert (D : forall a b : list job, NoDup a -> NoDup b -> (forall x, In x a -> ~ In x b) -> NoDup (a ++ b)).
  { induction a as [|x a IHa]; intros b Ha Hb Hd; [assumption|]. cbn. inversion_clear Ha. constructor.
    - intros Hi. apply in_app_or in Hi. destruct Hi as [Hi|Hi]; [contradiction|]. apply (Hd x); [left; reflexivity|assumption].
    - apply IHa; [assumption|assumption|]. intros y Hy. apply Hd. right. assumption. }
  apply D.
  - apply FinFun.Injective_map_NoDup; [intros a b E; congruence|apply seq_NoDup].
  - apply IH. exact H2.
  - intros x Hx Hy. apply in_map_iff in Hx. destruct Hx as [k [<- _]]. apply in_flat_map in Hy. destruct Hy as [i' [Hi' Hy]].
    apply in_map_iff in Hy. destruct Hy as [k' [E _]]. inversion E; subst. contradiction.
Qed.

Lemma rt_prod_pos : forall ts, Forall rt_task ts -> 0 < prod_periods ts.
Proof. induction 1 as [|t ts [_ H] _ IH]; cbn; [lia|]. fold (prod_periods ts). nia. Qed.

Section Overload.
  Variables (ts : taskset) (pps bounds : list Z) (m : nat).
  Hypothesis Hts : Forall rt_task ts.
  Hypothesis Hlb : length bounds = length ts.
  Hypothesis Hresp : gel_responses (map cp_of ts) pps m bounds.

  Let n := length ts.
  Let C i := t_cost (nth i ts dtask).
  Let T i := t_period (nth i ts dtask).
  Let P := prod_periods ts.
  Let B := zsum (map (fun b => Z.max 0 b) bounds).
  Let sc := gel_schedule ts pps m.
  Let s := periodic ts.

  Lemma o_P : 0 < P.
  Proof. apply rt_prod_pos. exact Hts. Qed.

  Lemma o_div : forall i, (i < n)%nat -> P / T i * T i = P.
  Proof.
    intros i Hi. destruct (prod_periods_div ts (nth i ts dtask) ltac:(apply nth_In; exact Hi)) as [z E]. fold P in E. fold (T i) in E.
    pose proof (rt_nth ts i Hts) as [_ W]. fold (T i) in W. rewrite E, Z.div_mul by lia. reflexivity.
  Qed.

  Lemma o_B : forall i b, nth_error bounds i = Some b -> b <= B /\ 0 <= B.
  Proof.
    intros i b E. apply nth_error_In in E. unfold B. clear - E. induction bounds as [|a l IH]; [destruct E|]. cbn [map zsum].
    assert (0 <= zsum (map (fun b => Z.max 0 b) l)) by (apply zsum_nonneg; intros x Hx; apply in_map_iff in Hx; destruct Hx as [y [<- _]]; lia).
    destruct E as [->|E]; [lia|]. specialize (IH E). lia.
  Qed.

  Lemma gcompleted_mono : forall j a b, (a <= b)%nat -> gcompleted s sc j a -> gcompleted s sc j b.
  Proof. intros j a b H Hc. unfold gcompleted in *. pose proof (gservice_mono sc j a b H). lia. Qed.

  (** after N hyperperiods and B more slots, all jobs of the first N hyperperiods are complete *)
  Lemma o_done : forall N i k, (i < n)%nat -> (k < N * Z.to_nat (P / T i))%nat -> gcompleted s sc (i, k) (Z.to_nat (Z.of_nat N * P + B)).
  Proof.
    intros N i k Hi Hk. destruct (gel_schedule_ok ts pps m Hts) as [Hv Hg].
    assert (exists b, nth_error bounds i = Some b) as [b Eb].
    { destruct (nth_error bounds i) eqn:E; [eexists; reflexivity|]. apply nth_error_None in E. unfold n in Hi. lia. }
    destruct (Hresp s sc (periodic_legal ts Hts)) with (j := (i, k)) (b := b) as [q [Q1 Q2]]; rewrite ?map_length; try assumption.
    apply gcompleted_mono with q; [|exact Q2]. cbn [fst snd] in Q1. unfold s in Q1. cbn [periodic arr] in Q1. fold (T i) in Q1.
    pose proof (rt_nth ts i Hts) as [_ W]. fold (T i) in W. pose proof (o_B i b Eb) as [B1 B2]. pose proof o_P as HP. pose proof (o_div i Hi) as D.
    assert (0 <= P / T i) by (apply Z.div_pos; lia).
    assert (Z.of_nat k * T i <= Z.of_nat N * P).
    { rewrite <- D, Z.mul_assoc. apply Z.mul_le_mono_nonneg_r; [lia|]. apply inj_lt in Hk. rewrite Nat2Z.inj_mul, Z2Nat.id in Hk by lia. lia. }
    nia.
  Qed.

  Lemma sumf_const : forall c q, sumf (fun _ => c) q = Z.of_nat q * c.
  Proof. induction q as [|q IH]; [reflexivity|]. cbn [sumf]. rewrite IH. lia. Qed.

  Lemma o_work : forall l c N, NoDup l -> (forall i, In i l -> (i < n)%nat) ->
    (forall L u, NoDup L -> (forall j, In j L -> In (fst j) l) -> (length (filter (fun j => gruns sc j u) L) <= c)%nat) ->
    Z.of_nat N * zsum (map (fun i => P / T i * C i) l) <= Z.of_nat c * (Z.of_nat N * P + B).
  Proof.
    intros l c N Hn Hl Hc. set (ki i := (N * Z.to_nat (P / T i))%nat). set (t := Z.to_nat (Z.of_nat N * P + B)).
    pose proof o_P as HP.
    assert (HB : 0 <= B) by (apply zsum_nonneg; intros x Hx; apply in_map_iff in Hx; destruct Hx as [y [<- _]]; lia).
    assert (Ht : Z.of_nat t = Z.of_nat N * P + B) by (unfold t; rewrite Z2Nat.id; [reflexivity|nia]).
    pose proof (completed_sum s sc t ki l ltac:(intros i k Hi Hk; apply o_done; [apply Hl; exact Hi|exact Hk])) as G1.
    pose proof (service_le sc (flat_map (fun i => map (fun k => (i, k)) (seq 0 (ki i))) l) c t) as G2.
    rewrite Ht in G2. eapply Z.le_trans; [|eapply Z.le_trans; [exact G1|apply G2]].
    - clear G1 G2 Hc Hn. induction l as [|i l IH]; [cbn; lia|]. cbn [map zsum]. rewrite Z.mul_add_distr_l.
      specialize (IH (fun x Hx => Hl x (or_intror Hx))).
      enough (Z.of_nat N * (P / T i * C i) <= sumf (fun k => Z.of_nat (cst s i k)) (ki i)) by lia.
      unfold s. cbn [periodic cst]. fold (C i). rewrite sumf_const. pose proof (rt_nth ts i Hts) as [W1 W2]. fold (C i) in W1. fold (T i) in W2.
      assert (0 <= P / T i) by (apply Z.div_pos; lia). unfold ki. rewrite Nat2Z.inj_mul, !Z2Nat.id by lia. lia.
    - intros u. apply Hc; [apply jobs_nodup; exact Hn|]. intros j Hj. apply in_flat_map in Hj. destruct Hj as [i [Hi Hj]].
      apply in_map_iff in Hj. destruct Hj as [k [<- _]]. exact Hi.
  Qed.

  Lemma o_cost : forall i, (i < n)%nat -> C i <= T i.
  Proof.
    intros i Hi. destruct (gel_schedule_ok ts pps m Hts) as [Hv Hg]. destruct (Z.le_gt_cases (C i) (T i)) as [L|L]; [exact L|exfalso].
    pose proof (o_work [i] 1 (Z.to_nat (B + 1)) ltac:(constructor; [intros []|constructor]) ltac:(intros j [<-|[]]; exact Hi)) as G.
    assert (HB : 0 <= B) by (apply zsum_nonneg; intros x Hx; apply in_map_iff in Hx; destruct Hx as [y [<- _]]; lia).
    cbn [map zsum] in G. rewrite Z2Nat.id in G by lia. pose proof (o_div i Hi) as D. pose proof (rt_nth ts i Hts) as [_ W]. fold (T i) in W. pose proof o_P as HP.
    assert (1 <= P / T i) by (destruct (Z.le_gt_cases 1 (P / T i)) as [X|X]; [exact X|nia]).
    assert (P / T i * C i >= P + 1) by nia.
    assert ((B + 1) * (P / T i * C i + 0) <= Z.of_nat 1 * ((B + 1) * P + B)); [apply G|nia].
    intros L' u HL1 HL2. destruct (filter (fun j => gruns sc j u) L') as [|a [|b r]] eqn:Ef; cbn [length]; try lia. exfalso.
    assert (NoDup (a :: b :: r)) as ND by (rewrite <- Ef; apply NoDup_filter; exact HL1).
    assert (Ha : In a (filter (fun j => gruns sc j u) L')) by (rewrite Ef; left; reflexivity).
    assert (Hb : In b (filter (fun j => gruns sc j u) L')) by (rewrite Ef; right; left; reflexivity).
    apply filter_In in Ha. apply filter_In in Hb. destruct Ha as [Ha1 Ha2], Hb as [Hb1 Hb2].
    pose proof (HL2 a Ha1) as Fa. pose proof (HL2 b Hb1) as Fb. destruct Fa as [Fa|[]], Fb as [Fb|[]].
    inversion ND as [|? ? N1 _]; subst. apply N1. left.
    destruct a as [ia ka], b as [ib kb]. cbn [fst] in *. subst. f_equal.
    symmetry. eapply one_per_task; [exact Hv|exact Ha2|exact Hb2].
  Qed.

  Lemma o_util : zsum (map (fun i => P / T i * C i) (seq 0 n)) <= Z.of_nat m * P.
  Proof.
    destruct (gel_schedule_ok ts pps m Hts) as [Hv Hg]. destruct (Z.le_gt_cases (zsum (map (fun i => P / T i * C i) (seq 0 n))) (Z.of_nat m * P)) as [L|L]; [exact L|exfalso].
    assert (HB : 0 <= B) by (apply zsum_nonneg; intros x Hx; apply in_map_iff in Hx; destruct Hx as [y [<- _]]; lia).
    pose proof (o_work (seq 0 n) m (Z.to_nat (Z.of_nat m * B + 1)) (seq_NoDup _ _) ltac:(intros i Hi; apply in_seq in Hi; lia)) as G.
    rewrite Z2Nat.id in G by nia. pose proof o_P as HP.
    specialize (G ltac:(intros L' u HL1 _; eapply runs_le; [exact Hv|exact HL1])). nia.
  Qed.

  Lemma overload : has_bounded_tardiness (Z.of_nat m) ts = true.
  Proof.
    unfold has_bounded_tardiness. apply andb_true_iff. split.
    - apply Qle_bool_iff. pose proof o_util as H. pose proof o_P as HP. rewrite Zle_Qle, zsum_inject, inject_Z_mult in H.
      assert (HPq : (0 < inject_Z P)%Q) by (change 0%Q with (inject_Z 0); rewrite <- Zlt_Qlt; exact HP).
      rewrite (qs_ext _ _ (fun i => utilization (nth i ts dtask) * inject_Z P)%Q) in H.
      + rewrite qs_mul in H. unfold ts_utilization. rewrite (map_index _ _ utilization dtask).
        set (U := qsum (map (fun i => utilization (nth i ts dtask)) (seq 0 (length ts)))) in *. fold n in U. fold U in H. fold U. 
        destruct (Qlt_le_dec (inject_Z (Z.of_nat m)) U) as [L|L]; [nra|exact L].
      + intros i Hi. apply in_seq in Hi. rewrite inject_Z_mult. unfold utilization, zdivq. fold (C i). fold (T i).
        pose proof (o_div i ltac:(lia)) as D. pose proof (rt_nth ts i Hts) as [_ W]. fold (T i) in W.
        assert (E : (inject_Z (P / T i) * inject_Z (T i) == inject_Z P)%Q) by (rewrite <- inject_Z_mult, D; reflexivity).
        rewrite Zle_Qle in W. change (inject_Z 1) with 1%Q in W. rewrite <- E. field. lra.
    - apply forallb_forall. intros t Ht. destruct (In_nth ts t dtask Ht) as [i [Hi <-]]. apply Z.leb_le. exact (o_cost i Hi).
  Qed.
End Overload.
