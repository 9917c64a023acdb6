(** Exactness, termination and sustainability of fixed-priority RTA. *)
From Coq Require Import ZArith List Bool Lia.
From Verif Require Import Base ModelTasks ModelFP SpecUni SpecFP ProofUni ProofGreedy ProofFP.
Import ListNotations.
Open Scope Z_scope.

(** ** The critical sequence *)
Section Critical.
  Variable ps : list promise.
  Hypothesis Hper : Forall (fun p => 1 <= pr_period p /\ 0 <= pr_cost p /\ 0 <= pr_jitter p) ps.

  Let prm h := nth h ps (Promise 0 1 0).

  Lemma max_jitter_ge : forall p, In p ps -> pr_jitter p <= max_jitter ps.
  Proof.
    clear. unfold max_jitter. induction ps as [|q l IH]; intros p H; [inv H|]. cbn. destruct H as [->|H]; [lia|].
    specialize (IH p H). lia.
  Qed.
  Lemma max_jitter_nonneg : 0 <= max_jitter ps.
  Proof. clear. unfold max_jitter. induction ps; cbn; lia. Qed.

  Lemma prm_ok : forall h, (h < length ps)%nat ->
    1 <= pr_period (prm h) /\ 0 <= pr_cost (prm h) /\ 0 <= pr_jitter (prm h) <= max_jitter ps.
  Proof.
    intros h Hh. assert (Hin : In (prm h) ps) by (apply nth_In; assumption).
    rewrite Forall_forall in Hper. specialize (Hper _ Hin). pose proof (max_jitter_ge _ Hin). lia.
  Qed.

  Lemma critical_arr : forall h k, (h < length ps)%nat ->
    Z.of_nat (arr (critical ps) h k) = max_jitter ps - pr_jitter (prm h) + Z.of_nat k * pr_period (prm h).
  Proof.
    intros h k Hh. pose proof (prm_ok h Hh). cbn. fold (prm h). rewrite Z2Nat.id; nia.
  Qed.

  Lemma critical_rel : forall h k, (h < length ps)%nat ->
    Z.of_nat (rel (critical ps) h k) =
    Z.max (max_jitter ps) (max_jitter ps - pr_jitter (prm h) + Z.of_nat k * pr_period (prm h)).
  Proof.
    intros h k Hh. pose proof (critical_arr h k Hh) as E. pose proof max_jitter_nonneg.
    assert (rel (critical ps) h k = Nat.max (Z.to_nat (max_jitter ps)) (arr (critical ps) h k)) as -> by reflexivity.
    rewrite Nat2Z.inj_max, E, Z2Nat.id; lia.
  Qed.

  Lemma critical_cst : forall h k, (h < length ps)%nat -> Z.of_nat (cst (critical ps) h k) = pr_cost (prm h).
  Proof. intros h k Hh. pose proof (prm_ok h Hh). cbn. fold (prm h). apply Z2Nat.id. lia. Qed.

  Lemma critical_legal : legal_seq ps (critical ps).
  Proof.
    intros i p Hp k. assert (Hi : (i < length ps)%nat) by (apply nth_error_Some; congruence).
    assert (E : prm i = p) by (apply nth_error_nth; assumption).
    pose proof (prm_ok i Hi) as Hok. pose proof (critical_arr i k Hi) as E1. pose proof (critical_arr i (S k) Hi) as E2.
    pose proof (critical_rel i k Hi) as E3. pose proof (critical_cst i k Hi) as E4. rewrite E in *.
    rewrite Nat2Z.inj_succ in E2.
    assert (0 <= Z.of_nat k * pr_period p) by nia.
    repeat split; lia.
  Qed.

  Lemma critical_index : forall h k, (h < length ps)%nat -> (k <= rel (critical ps) h k)%nat.
  Proof.
    intros h k Hh. pose proof (prm_ok h Hh). pose proof (critical_rel h k Hh). nia.
  Qed.

  Variables (sc : schedule) (i : nat).
  Hypothesis Hi : (i < length ps)%nat.
  Hypothesis Hvalid : valid_schedule (length ps) (critical ps) sc.
  Hypothesis Hstrict : fp_strict (length ps) (critical ps) sc.
  Hypothesis Hc : 1 <= pr_cost (prm i).

  Let A := Z.to_nat (max_jitter ps).

  Lemma service_last : forall j c x, 1 <= c -> c <= service sc j x ->
    exists u, (u < x)%nat /\ runs sc j u = true /\ c <= service sc j (S u).
  Proof.
    intros j c. induction x as [|x IH]; intros Hc1 H; [cbn in H; lia|].
    destruct (Z.le_gt_cases c (service sc j x)) as [G|G].
    - destruct (IH Hc1 G) as [u [H1 H2]]. exists u. split; [lia|assumption].
    - exists x. split; [lia|]. split; [|assumption]. rewrite service_step in H.
      destruct (runs sc j x); [reflexivity|cbn in H; lia].
  Qed.

  Lemma critical_demand : forall q, completed (critical ps) sc (i, 0%nat) q ->
    exists d, (1 <= d)%nat /\ (A + d <= q)%nat /\ pr_cost (prm i) + hp_demand ps i (Z.of_nat d) <= Z.of_nat d.
  Proof.
    intros q Hcomp. unfold completed in Hcomp. cbn [fst snd] in Hcomp. rewrite critical_cst in Hcomp by assumption.
    destruct (service_last _ _ _ Hc Hcomp) as [u [Hu [Hrun Hsv]]].
    pose proof max_jitter_nonneg as HJ0.
    assert (HuA : (A <= u)%nat).
    { apply runs_pending with (n := length ps) (s := critical ps) in Hrun; [|assumption].
      destruct Hrun as [Hr _]. cbn [fst snd] in Hr. pose proof (critical_rel i 0 Hi). unfold A. lia. }
    exists (S u - A)%nat. split; [lia|]. split; [lia|]. set (d := (S u - A)%nat).
    (* all higher-priority work released by u is finished *)
    assert (Hdone : forall h k, (h < i)%nat -> (rel (critical ps) h k <= u)%nat -> completed (critical ps) sc (h, k) (S u)).
    { intros h k Hh Hr. destruct (Z.le_gt_cases (Z.of_nat (cst (critical ps) h k)) (service sc (h, k) u)) as [G|G].
      - apply completed_mono with u; [lia|exact G].
      - exfalso. destruct (Hstrict u (h, k)) as [j' [E Hj']]; [simpl; lia|split; assumption|].
        apply runs_iff in Hrun. rewrite Hrun in E. inv E. apply hep_iff in Hj'. simpl in Hj'. lia. }
    set (K := (A + d)%nat).
    pose proof (serves_window sc (fun j => hep j (i, 0%nat)) (S i) K A d) as Hw.
    assert (Hz : forall h k, (h <= i)%nat -> service sc (h, k) A = 0).
    { intros h k Hh. apply (service_before_release _ _ _ Hvalid). cbn [fst snd].
      pose proof (critical_rel h k ltac:(lia)). unfold A. lia. }
    assert (Htop : sumf (fun u0 => b2z (servesP sc (fun j => hep j (i, 0%nat)) (A + u0))) d <= Z.of_nat d).
    { eapply Z.le_trans; [apply (sumf_le _ (fun _ => 1)); intros; apply b2z_range|]. rewrite sumf_const. lia. }
    rewrite Hw in Htop.
    2:{ intros u0 Hu0 j Hj HP. apply hep_iff in HP. cbn [fst snd] in HP.
        destruct (Hvalid _ _ Hj) as [Hjn [Hr _]]. pose proof (critical_index (fst j) (snd j) Hjn). unfold K. lia. }
    cbn [sumf] in Htop.
    replace (A + d)%nat with (S u) in Htop by (unfold d; lia).
    assert (Hown : pr_cost (prm i) <= sumf (fun k => if hep (i, k) (i, 0%nat) then service sc (i, k) (S u) - service sc (i, k) A else 0) K).
    { rewrite (sumf_single _ K 0%nat).
      - rewrite hep_refl, Hz by lia. lia.
      - unfold K, d. lia.
      - intros k Hk Hne. destruct (hep (i, k) (i, 0%nat)) eqn:E; [|reflexivity]. apply hep_iff in E. simpl in E. lia. }
    assert (Hhp : hp_demand ps i (Z.of_nat d) <=
      sumf (fun h => sumf (fun k => if hep (h, k) (i, 0%nat) then service sc (h, k) (S u) - service sc (h, k) A else 0) K) i).
    { unfold hp_demand. apply sumf_le. intros h Hh. fold (prm h).
      pose proof (prm_ok h ltac:(lia)) as Hok.
      set (c := cdiv (Z.of_nat d + pr_jitter (prm h)) (pr_period (prm h))).
      assert (Hc0 : 0 <= c) by (apply cdiv_nonneg; lia).
      assert (HcK : c <= Z.of_nat K).
      { apply cdiv_le_iff; [lia|]. unfold K. rewrite Nat2Z.inj_add.
        assert (Z.of_nat A = max_jitter ps) by (unfold A; lia). nia. }
      assert (Hge : sumf (fun k => if hep (h, k) (i, 0%nat) then service sc (h, k) (S u) - service sc (h, k) A else 0) (Z.to_nat c)
                   <= sumf (fun k => if hep (h, k) (i, 0%nat) then service sc (h, k) (S u) - service sc (h, k) A else 0) K).
      { apply sumf_mono; [lia|]. intros k Hk. destruct (hep (h, k) (i, 0%nat)); [|lia].
        pose proof (service_mono sc (h, k) A (S u) ltac:(lia)). lia. }
      eapply Z.le_trans; [|exact Hge].
      rewrite <- (Z2Nat.id c) at 1 by lia. rewrite <- sumf_const. apply sumf_le. intros k Hk.
      assert (hep (h, k) (i, 0%nat) = true) as -> by (apply hep_iff; simpl; lia).
      rewrite Hz by lia.
      assert (Hrel : (rel (critical ps) h k <= u)%nat).
      { pose proof (critical_rel h k ltac:(lia)) as Er.
        assert (Hkc : Z.of_nat k <= c - 1) by lia.
        pose proof (cdiv_spec (Z.of_nat d + pr_jitter (prm h)) (pr_period (prm h)) ltac:(lia)) as Hs. fold c in Hs.
        assert (pr_period (prm h) * Z.of_nat k <= pr_period (prm h) * (c - 1)) by (apply Z.mul_le_mono_nonneg_l; lia).
        assert (Z.of_nat A = max_jitter ps) by (unfold A; lia).
        assert (Z.of_nat d = Z.of_nat u + 1 - max_jitter ps) by (unfold d; lia). lia. }
      specialize (Hdone h k Hh Hrel). unfold completed in Hdone. cbn [fst snd] in Hdone.
      rewrite critical_cst in Hdone by lia. lia. }
    lia.
  Qed.
End Critical.

(** ** Exactness *)
Section Exact.
  Variables (own : fptask -> Z) (fuel : nat) (ts : list fptask) (b : bool) (res : list analysed).
  Hypothesis Hown : forall t, In t ts -> own t = t_cost (fp_task t).
  Hypothesis Hwf : Forall wf_task ts.
  Hypothesis Hcd : Forall (fun t => t_deadline (fp_task t) <= t_period (fp_task t)) ts.
  Hypothesis Hfacts : rta_facts (jitter_rta own fuel) ts b res.

  Let ps := map promise_of ts.

  Lemma ps_ok : Forall (fun p => 1 <= pr_period p /\ 0 <= pr_cost p /\ 0 <= pr_jitter p) ps.
  Proof.
    apply Forall_forall. intros p Hp. apply in_map_iff in Hp. destruct Hp as [x [<- Hx]].
    rewrite Forall_forall in Hwf. destruct (Hwf x Hx) as [? [? [? [? ?]]]]. simpl. lia.
  Qed.

  Lemma prefix_ok : forall i, (i <= length res)%nat -> hp_ok hp_get_jitter (firstn i res).
  Proof.
    intros i Hi. pose proof (firstn_res _ _ _ _ i Hfacts Hi) as Hm.
    apply Forall_forall. intros a Ha.
    assert (H0 : In (fst a) (firstn i ts)) by (rewrite <- Hm; apply in_map; assumption).
    assert (H1 : In (fst a) ts) by (rewrite <- (firstn_skipn i ts); apply in_or_app; left; assumption).
    rewrite Forall_forall in Hwf. destruct (Hwf _ H1) as [? [? [? [? ?]]]].
    unfold hcost, hper, hp_get_jitter, get_jitter. lia.
  Qed.

  (** no completion of the first job before the loop's value *)
  Lemma loop_vs_schedule : forall i t, nth_error ts i = Some t -> (i <= length res)%nat ->
    forall sc, valid_schedule (length ts) (critical ps) sc -> fp_strict (length ts) (critical ps) sc ->
    forall q, completed (critical ps) sc (i, 0%nat) q ->
    match rta_loop fuel (own t) (firstn i res) hp_get_jitter (t_deadline (fp_task t)) (start (own t) (firstn i res)) with
    | Accepted d => Z.of_nat (arr (critical ps) i 0) + (d + get_jitter t) <= Z.of_nat q
    | Rejected => Z.of_nat (arr (critical ps) i 0) + (t_deadline (fp_task t) + get_jitter t) < Z.of_nat q
    | OutOfFuel => True
    end.
  Proof.
    intros i t Ht Hir sc Hvalid Hstrict q Hq.
    assert (Hi : (i < length ts)%nat) by (apply nth_error_Some; congruence).
    assert (Hlen : length ps = length ts) by (unfold ps; apply map_length).
    assert (Hpi : nth i ps (Promise 0 1 0) = promise_of t).
    { apply nth_error_nth. unfold ps. apply map_nth_error. assumption. }
    assert (Hint : In t ts) by (eapply nth_error_In; eassumption).
    assert (Hwt : wf_task t) by (rewrite Forall_forall in Hwf; apply Hwf; assumption).
    assert (Hc1 : 1 <= pr_cost (nth i ps (Promise 0 1 0))) by (rewrite Hpi; simpl; destruct Hwt; lia).
    destruct (critical_demand ps ps_ok sc i ltac:(lia) ltac:(rewrite Hlen; assumption) ltac:(rewrite Hlen; assumption)
      Hc1 q Hq) as [d [Hd1 [HdA Hdem]]].
    rewrite Hpi in Hdem. simpl pr_cost in Hdem.
    assert (Hm : map fst (firstn i res) = firstn i ts) by (eapply firstn_res; eassumption).
    assert (Hf : rta_demand (own t) (firstn i res) hp_get_jitter (Z.of_nat d) <= Z.of_nat d).
    { rewrite rta_demand_eq, (hp_sum_promises _ ts i) by (try assumption; lia). fold ps.
      rewrite Hown by assumption. exact Hdem. }
    assert (Hst : start (own t) (firstn i res) <= Z.of_nat d).
    { eapply Z.le_trans; [|exact Hf]. rewrite rta_demand_eq. unfold start. rewrite Z.add_comm.
      apply Z.add_le_mono_l. apply zsum_map_le. intros a Ha.
      pose proof (prefix_ok i Hir) as Hok. unfold hp_ok in Hok. rewrite Forall_forall in Hok.
      destruct (Hok a Ha) as [? [? ?]].
      assert (1 <= cdiv (Z.of_nat d + hp_get_jitter a) (hper a)) by (apply cdiv_pos; lia). nia. }
    pose proof (rta_loop_least (own t) (firstn i res) hp_get_jitter (t_deadline (fp_task t)) fuel _ _ (prefix_ok i Hir) Hst Hf) as HL.
    assert (Earr : Z.of_nat (arr (critical ps) i 0) = max_jitter ps - pr_jitter (nth i ps (Promise 0 1 0)) +
       Z.of_nat 0 * pr_period (nth i ps (Promise 0 1 0))) by (apply critical_arr; [apply ps_ok|lia]).
    rewrite Hpi in Earr. change (Z.of_nat 0) with 0 in Earr. cbn [pr_jitter promise_of Z.mul] in Earr.
    fold (get_jitter t) in Earr. pose proof (max_jitter_nonneg ps).
    destruct (rta_loop _ _ _ _ _ _); [exact I| |]; lia.
  Qed.

  Lemma exact_accept : forall i t r, nth_error res i = Some (t, r) ->
    forall sc, valid_schedule (length ts) (critical ps) sc -> fp_strict (length ts) (critical ps) sc ->
    forall q, completed (critical ps) sc (i, 0%nat) q -> Z.of_nat (arr (critical ps) i 0) + r <= Z.of_nat q.
  Proof.
    intros i t r Hr sc Hv Hs q Hq. pose proof Hfacts as [F1 [F2 _]]. destruct (F2 i _ Hr) as [Ht Hrta]. cbn [fst snd] in *.
    assert (Hir : (i < length res)%nat) by (apply nth_error_Some; congruence).
    pose proof (loop_vs_schedule i t Ht ltac:(lia) sc Hv Hs q Hq) as H.
    unfold jitter_rta in Hrta. apply gen_accept in Hrta. destruct Hrta as [d [-> [_ [_ E]]]]. rewrite E in H. exact H.
  Qed.

  Lemma exact_reject : b = false -> exists t, nth_error ts (length res) = Some t /\
    forall sc, valid_schedule (length ts) (critical ps) sc -> fp_strict (length ts) (critical ps) sc ->
    forall q, completed (critical ps) sc (length res, 0%nat) q ->
    Z.of_nat (arr (critical ps) (length res) 0) + (t_deadline (fp_task t) + get_jitter t) < Z.of_nat q.
  Proof.
    intros Hb. pose proof Hfacts as [F1 [F2 [_ F3]]]. destruct (F3 Hb) as [t [Ht Hrej]]. exists t. split; [assumption|].
    intros sc Hv Hs q Hq. pose proof (loop_vs_schedule _ t Ht ltac:(lia) sc Hv Hs q Hq) as H.
    unfold jitter_rta in Hrej. apply gen_reject in Hrej. rewrite firstn_all in H. rewrite Hrej in H. exact H.
  Qed.

  Lemma critical_schedule_exists : exists sc,
    valid_schedule (length ts) (critical ps) sc /\ fp_strict (length ts) (critical ps) sc.
  Proof.
    assert (Hlen : length ps = length ts) by (unfold ps; apply map_length).
    exists (fp_schedule (length ts) (critical ps)). split; [apply fp_schedule_valid|].
    apply fp_schedule_strict. intros h k Hh. apply critical_index; [apply ps_ok|lia].
  Qed.
End Exact.

(** ** Termination *)
Lemma gen_terminates : forall fuel t own hp hpj, hp_ok hpj hp -> 0 <= own ->
  Z.max 0 (t_deadline (fp_task t)) + 1 < Z.of_nat fuel ->
  rta_jitter_aware_gen fuel t own hp hpj <> OutOfFuel.
Proof.
  intros fuel t own hp hpj Hok Hown Hf. unfold rta_jitter_aware_gen.
  change (zsum (map (fun a => t_cost (fp_task (fst a))) hp) + own) with (start own hp).
  assert (Hs0 : 0 <= start own hp).
  { unfold start. assert (0 <= zsum (map hcost hp)); [|lia]. apply zsum_nonneg. intros x Hx.
    apply in_map_iff in Hx. destruct Hx as [a [<- Ha]]. unfold hp_ok in Hok. rewrite Forall_forall in Hok. apply Hok. assumption. }
  pose proof (rta_loop_terminates own hp hpj (t_deadline (fp_task t)) Hok fuel (start own hp)
    (start_le_demand _ _ _ _ Hok Hown (Z.le_refl _)) ltac:(lia)) as H.
  destruct (rta_loop _ _ _ _ _ _); congruence.
Qed.

Lemma gen_fuel : forall fuel fuel' t own hp hpj x, (fuel <= fuel')%nat ->
  rta_jitter_aware_gen fuel t own hp hpj = x -> x <> OutOfFuel -> rta_jitter_aware_gen fuel' t own hp hpj = x.
Proof.
  intros fuel fuel' t own hp hpj x Hle H Hx. unfold rta_jitter_aware_gen in *.
  destruct (rta_loop fuel own hp hpj (t_deadline (fp_task t)) (zsum (map (fun a => t_cost (fp_task (fst a))) hp) + own)) eqn:E;
    [congruence| |]; rewrite (rta_loop_fuel _ _ _ _ _ _ _ _ Hle E) by discriminate; assumption.
Qed.

(** All four analyses have the same shape. *)
Definition sel_own (ts : list fptask) (t : fptask) : Z :=
  if uses_legacy_blocked_field ts then get_blocked t + t_cost (fp_task t)
  else if has_self_suspensions ts then get_prio_inversion t + t_cost (fp_task t) + get_suspended t
  else get_prio_inversion t + t_cost (fp_task t).
Definition sel_jit (ts : list fptask) : analysed -> Z :=
  if has_self_suspensions ts then suspension_jitter else hp_get_jitter.

Lemma select_rta_eq : forall ts fuel t hp,
  select_rta ts fuel t hp = rta_jitter_aware_gen fuel t (sel_own ts t) hp (sel_jit ts).
Proof.
  intros. unfold select_rta, sel_own, sel_jit.
  destruct (uses_legacy_blocked_field ts); destruct (has_self_suspensions ts); reflexivity.
Qed.

Lemma sel_own_ge : forall ts t, wf_task t -> t_cost (fp_task t) <= sel_own ts t.
Proof.
  intros ts t [? [? [? [? [? ?]]]]]. unfold sel_own, get_blocked, get_suspended, get_prio_inversion.
  destruct (uses_legacy_blocked_field ts); [lia|]. destruct (has_self_suspensions ts); lia.
Qed.

(** prefixes produced by the outer loop are well formed for either jitter *)
Definition done_ok (hp : list analysed) : Prop :=
  Forall (fun a => wf_task (fst a) /\ hcost a + get_jitter (fst a) <= snd a) hp.

Lemma done_hp_ok : forall ts hp, done_ok hp -> hp_ok (sel_jit ts) hp.
Proof.
  intros ts hp H. unfold done_ok in H. rewrite Forall_forall in H. apply Forall_forall. intros a Ha.
  destruct (H a Ha) as [[? [? [? [? [? ?]]]]] Hr]. unfold hcost, hper, get_jitter in *.
  unfold sel_jit, suspension_jitter, hp_get_jitter, get_jitter.
  destruct (has_self_suspensions ts); [|lia]. destruct (0 <? get_suspended (fst a)); lia.
Qed.

Lemma start_ge_own : forall own hp, Forall (fun a => 0 <= hcost a) hp -> own <= start own hp.
Proof.
  intros own hp H. unfold start. assert (0 <= zsum (map hcost hp)); [|lia]. apply zsum_nonneg. intros x Hx.
  apply in_map_iff in Hx. destruct Hx as [a [<- Ha]]. rewrite Forall_forall in H. apply H. assumption.
Qed.

Lemma gen_accept_ge : forall fuel t own hp hpj r, hp_ok hpj hp -> 0 <= own ->
  rta_jitter_aware_gen fuel t own hp hpj = Accepted r -> own + get_jitter t <= r.
Proof.
  intros fuel t own hp hpj r Hok Hown H. apply gen_accept in H. destruct H as [d [-> [_ [_ HL]]]].
  pose proof (rta_loop_inv (fun x => start own hp <= x) own hp hpj (t_deadline (fp_task t))
     (fun x Hx => start_le_demand _ own _ x Hok Hown Hx) fuel (start own hp) (Z.le_refl _)) as Hi.
  rewrite HL in Hi.
  assert (own <= start own hp); [|lia]. apply start_ge_own.
  apply Forall_forall. intros a Ha. unfold hp_ok in Hok. rewrite Forall_forall in Hok. apply Hok. assumption.
Qed.

Lemma rta_all_terminates : forall ts fuel todo done,
  Forall wf_task todo -> done_ok done ->
  (forall t, In t todo -> Z.max 0 (t_deadline (fp_task t)) + 1 < Z.of_nat fuel) ->
  rta_all (select_rta ts fuel) done todo <> OutOfFuel.
Proof.
  intros ts fuel. induction todo as [|t todo IH]; intros done Hwf Hdone Hf; cbn; [discriminate|].
  inv Hwf. rewrite select_rta_eq.
  pose proof (sel_own_ge ts t H1) as Hge. pose proof (done_hp_ok ts done Hdone) as Hok.
  assert (Ho : 0 <= sel_own ts t) by (destruct H1; lia).
  pose proof (gen_terminates fuel t (sel_own ts t) done (sel_jit ts) Hok Ho (Hf t (or_introl eq_refl))) as HT.
  destruct (rta_jitter_aware_gen fuel t (sel_own ts t) done (sel_jit ts)) as [| |r] eqn:E; [congruence|discriminate|].
  apply IH; [assumption| |intros; apply Hf; right; assumption].
  apply Forall_app. split; [assumption|]. constructor; [|constructor]. split; [assumption|].
  cbn [fst snd]. apply gen_accept_ge in E; try assumption. unfold hcost. simpl. lia.
Qed.

Definition rta_fuel (ts : list fptask) : nat :=
  Z.to_nat (fold_right (fun t m => Z.max (t_deadline (fp_task t)) m) 0 ts) + 2.

Lemma bound_terminates : forall ts no_cpus fuel, Forall wf_task ts -> (rta_fuel ts <= fuel)%nat ->
  bound_response_times fuel no_cpus ts <> OutOfFuel.
Proof.
  intros ts m fuel Hwf Hf. unfold bound_response_times. destruct (negb _); [discriminate|].
  apply rta_all_terminates; [assumption|constructor|]. intros t Ht. unfold rta_fuel in Hf.
  assert (0 <= fold_right (fun t m => Z.max (t_deadline (fp_task t)) m) 0 ts /\
          t_deadline (fp_task t) <= fold_right (fun t m => Z.max (t_deadline (fp_task t)) m) 0 ts); [|lia].
  clear -Ht. induction ts as [|u ts IH]; [inv Ht|]. cbn. destruct Ht as [->|Ht].
  - split; [|lia]. assert (0 <= fold_right (fun t m => Z.max (t_deadline (fp_task t)) m) 0 ts); [|lia].
    clear. induction ts; cbn; lia.
  - specialize (IH Ht). lia.
Qed.

Lemma rta_all_fuel : forall ts fuel fuel' todo done x, (fuel <= fuel')%nat ->
  rta_all (select_rta ts fuel) done todo = x -> x <> OutOfFuel -> rta_all (select_rta ts fuel') done todo = x.
Proof.
  intros ts fuel fuel'. induction todo as [|t todo IH]; intros done x Hle H Hx; cbn in *; [assumption|].
  rewrite select_rta_eq in *.
  destruct (rta_jitter_aware_gen fuel t (sel_own ts t) done (sel_jit ts)) eqn:E; [congruence| |];
    rewrite (gen_fuel _ _ _ _ _ _ _ Hle E) by discriminate; [assumption|]. apply IH; assumption.
Qed.

Lemma bound_fuel : forall ts m fuel fuel' x, (fuel <= fuel')%nat ->
  bound_response_times fuel m ts = x -> x <> OutOfFuel -> bound_response_times fuel' m ts = x.
Proof.
  intros ts m fuel fuel' x Hle H Hx. unfold bound_response_times in *. destruct (negb _); [assumption|].
  eapply rta_all_fuel; eassumption.
Qed.

(** ** Sustainability *)
(** [better a' a]: analysed results *)
Definition better (ts' ts : list fptask) (a' a : analysed) : Prop :=
  hcost a' <= hcost a /\ hper a <= hper a' /\ snd a' <= snd a /\ sel_jit ts' a' <= sel_jit ts a.

Lemma demand_better : forall ts' ts hp' hp, Forall2 (better ts' ts) hp' hp ->
  hp_ok (sel_jit ts') hp' -> hp_ok (sel_jit ts) hp ->
  forall own' own d' d, 0 <= d' -> d' <= d -> 
  rta_demand own' hp' (sel_jit ts') d' - own' <= rta_demand own hp (sel_jit ts) d - own.
Proof.
  intros ts' ts hp' hp H. induction H as [|a' a hp' hp Hb HF IH]; intros Hok' Hok own' own d' d Hd Hdd.
  - rewrite !rta_demand_eq. simpl. lia.
  - inv Hok'. inv Hok. specialize (IH H2 H4 own' own d' d Hd Hdd). rewrite !rta_demand_eq in *. cbn [map zsum].
    destruct Hb as [B1 [B2 [B3 B4]]]. destruct H1 as [? [? ?]]. destruct H3 as [? [? ?]].
    assert (E1 : cdiv (d' + sel_jit ts' a') (hper a') <= cdiv (d' + sel_jit ts' a') (hper a)) by (apply cdiv_le_den; lia).
    assert (E2 : cdiv (d' + sel_jit ts' a') (hper a) <= cdiv (d + sel_jit ts a) (hper a)) by (apply cdiv_le; lia).
    assert (E3 : 0 <= cdiv (d' + sel_jit ts' a') (hper a')) by (apply cdiv_nonneg; lia).
    assert (hcost a' * cdiv (d' + sel_jit ts' a') (hper a') <= hcost a * cdiv (d + sel_jit ts a) (hper a)) by nia.
    lia.
Qed.

Lemma start_better : forall ts' ts hp' hp, Forall2 (better ts' ts) hp' hp ->
  zsum (map hcost hp') <= zsum (map hcost hp).
Proof. intros ts' ts hp' hp H. induction H as [|a' a hp' hp [B _] HF IH]; simpl; lia. Qed.

Lemma gen_better : forall ts' ts hp' hp t' t fuel fuel' r,
  Forall2 (better ts' ts) hp' hp -> hp_ok (sel_jit ts') hp' -> hp_ok (sel_jit ts) hp ->
  easier t' t -> 0 <= sel_own ts' t' -> 0 <= sel_own ts t ->
  sel_own ts' t' - t_cost (fp_task t') <= sel_own ts t - t_cost (fp_task t) ->
  rta_jitter_aware_gen fuel t (sel_own ts t) hp (sel_jit ts) = Accepted r ->
  rta_jitter_aware_gen fuel' t' (sel_own ts' t') hp' (sel_jit ts') <> OutOfFuel ->
  exists r', rta_jitter_aware_gen fuel' t' (sel_own ts' t') hp' (sel_jit ts') = Accepted r' /\
    r' <= r /\ r' - t_cost (fp_task t') <= r - t_cost (fp_task t).
Proof.
  intros ts' ts hp' hp t' t fuel fuel' r HF Hok' Hok Hez Ho' Ho Hoo Hacc Hterm.
  destruct Hez as [Z1 Z2 Z3 _ Z4 _ _ _ _].
  apply gen_accept in Hacc. destruct Hacc as [d [-> [Hd [Hfix HL]]]].
  pose proof (rta_loop_inv (fun x => start (sel_own ts t) hp <= x) (sel_own ts t) hp (sel_jit ts) (t_deadline (fp_task t))
     (fun x Hx => start_le_demand _ _ _ x Hok Ho Hx) fuel _ (Z.le_refl _)) as Hst.
  rewrite HL in Hst.
  assert (Hd0 : 0 <= d).
  { assert (0 <= start (sel_own ts t) hp); [|lia]. assert (sel_own ts t <= start (sel_own ts t) hp); [|lia].
    apply start_ge_own. apply Forall_forall. intros a Ha. unfold hp_ok in Hok. rewrite Forall_forall in Hok. apply Hok. assumption. }
  assert (Hst' : start (sel_own ts' t') hp' <= d).
  { unfold start in *. pose proof (start_better _ _ _ _ HF). lia. }
  assert (Hf' : rta_demand (sel_own ts' t') hp' (sel_jit ts') d <= d).
  { pose proof (demand_better ts' ts hp' hp HF Hok' Hok (sel_own ts' t') (sel_own ts t) d d Hd0 (Z.le_refl _)). lia. }
  pose proof (rta_loop_least (sel_own ts' t') hp' (sel_jit ts') (t_deadline (fp_task t')) fuel' _ d Hok' Hst' Hf') as Hleast.
  unfold rta_jitter_aware_gen in *.
  change (zsum (map (fun a => t_cost (fp_task (fst a))) hp') + sel_own ts' t') with (start (sel_own ts' t') hp') in *.
  destruct (rta_loop fuel' (sel_own ts' t') hp' (sel_jit ts') (t_deadline (fp_task t')) (start (sel_own ts' t') hp')) as [| |d'] eqn:E'.
  - congruence.
  - lia.
  - exists (d' + get_jitter t'). split; [reflexivity|]. unfold get_jitter. split; [lia|].
    apply rta_loop_accept in E' as Hfix'. destruct Hfix' as [_ Hfix'].
    assert (Hd0' : 0 <= d').
    { pose proof (rta_loop_inv (fun x => start (sel_own ts' t') hp' <= x) (sel_own ts' t') hp' (sel_jit ts') (t_deadline (fp_task t'))
         (fun x Hx => start_le_demand _ _ _ x Hok' Ho' Hx) fuel' _ (Z.le_refl _)) as Hst2.
      rewrite E' in Hst2. assert (sel_own ts' t' <= start (sel_own ts' t') hp'); [|lia].
      apply start_ge_own. apply Forall_forall. intros a Ha. unfold hp_ok in Hok'. rewrite Forall_forall in Hok'. apply Hok'. assumption. }
    pose proof (demand_better ts' ts hp' hp HF Hok' Hok (sel_own ts' t') (sel_own ts t) d' d Hd0' Hleast). lia.
Qed.

Lemma legacy_same : forall ts' ts, Forall2 easier ts' ts -> uses_legacy_blocked_field ts' = uses_legacy_blocked_field ts.
Proof.
  intros ts' ts H. induction H as [|t' t ts' ts He HF IH]; [reflexivity|]. cbn.
  fold (uses_legacy_blocked_field ts') (uses_legacy_blocked_field ts). rewrite IH. f_equal.
  destruct He as [_ _ _ _ _ _ _ _ [L1 L2]].
  destruct (fp_blocked t'); destruct (fp_blocked t); try reflexivity.
  - specialize (L2 eq_refl). discriminate.
  - specialize (L1 eq_refl). discriminate.
Qed.

Lemma susp_same : forall ts' ts, Forall2 easier ts' ts -> Forall wf_task ts' ->
  has_self_suspensions ts' = true -> has_self_suspensions ts = true.
Proof.
  intros ts' ts H. induction H as [|t' t ts' ts He HF IH]; intros Hwf Hs; [discriminate|]. inv Hwf.
  cbn in *. fold (has_self_suspensions ts') in Hs. fold (has_self_suspensions ts). apply orb_true_iff in Hs. apply orb_true_iff.
  destruct Hs as [Hs|Hs]; [left|right; apply IH; assumption].
  destruct He as [_ _ _ _ _ L _ _ _]. destruct H1 as [_ [_ [_ [_ [S _]]]]]. unfold attr in *.
  destruct (fp_suspended t') as [s'|]; [|discriminate]. apply negb_true_iff in Hs. apply Z.eqb_neq in Hs.
  destruct (fp_suspended t) as [x|]; [|lia]. apply negb_true_iff. apply Z.eqb_neq. lia.
Qed.

Lemma sel_own_better : forall ts' ts t' t, Forall2 easier ts' ts -> Forall wf_task ts' -> wf_task t -> easier t' t ->
  sel_own ts' t' - t_cost (fp_task t') <= sel_own ts t - t_cost (fp_task t).
Proof.
  intros ts' ts t' t HF Hwf Hwt [Z1 Z2 Z3 _ Z4 Z5 Z6 Z7 _]. unfold sel_own. rewrite (legacy_same _ _ HF).
  unfold get_blocked, get_prio_inversion, get_suspended. destruct Hwt as [? [? [? [? [? ?]]]]].
  destruct (uses_legacy_blocked_field ts); [lia|].
  destruct (has_self_suspensions ts') eqn:E; [rewrite (susp_same _ _ HF Hwf E); lia|].
  destruct (has_self_suspensions ts); lia.
Qed.

Lemma sel_jit_better : forall ts' ts t' t r' r, Forall2 easier ts' ts -> Forall wf_task ts' -> wf_task t' -> wf_task t -> easier t' t ->
  r' - t_cost (fp_task t') <= r - t_cost (fp_task t) -> t_cost (fp_task t) + get_jitter t <= r ->
  sel_jit ts' (t', r') <= sel_jit ts (t, r).
Proof.
  intros ts' ts t' t r' r HF Hwf Hwt' Hwt [Z1 Z2 Z3 _ Z4 Z5 Z6 Z7 _] Hr Hge.
  unfold sel_jit, suspension_jitter, hp_get_jitter, get_jitter, get_suspended in *. 
  destruct (has_self_suspensions ts') eqn:E.
  - rewrite (susp_same _ _ HF Hwf E). cbn [fst snd].
    destruct (Z.ltb_spec 0 (attr (fp_suspended t'))); destruct (Z.ltb_spec 0 (attr (fp_suspended t))); lia.
  - destruct (has_self_suspensions ts); cbn [fst snd]; [|lia].
    destruct (Z.ltb_spec 0 (attr (fp_suspended t))); lia.
Qed.

Lemma rta_all_better : forall ts' ts fuel fuel' todo' todo done' done res,
  Forall2 easier ts' ts -> Forall wf_task ts' ->
  Forall2 easier todo' todo -> Forall wf_task todo' -> Forall wf_task todo ->
  Forall2 (better ts' ts) done' done -> done_ok done' -> done_ok done ->
  rta_all (select_rta ts fuel) done todo = Accepted (true, res) ->
  rta_all (select_rta ts' fuel') done' todo' <> OutOfFuel ->
  exists res', rta_all (select_rta ts' fuel') done' todo' = Accepted (true, res') /\
    Forall2 (better ts' ts) res' res.
Proof.
  intros ts' ts fuel fuel' todo' todo done' done res HF Hwf' HFt.
  revert done' done res. induction HFt as [|t' t todo' todo He HFt IH]; intros done' done res Hw' Hw HFd Hd' Hd H Ht; cbn in *.
  - inv H. exists done'. split; [reflexivity|assumption].
  - inv Hw'. inv Hw. rewrite select_rta_eq in *.
    pose proof (done_hp_ok ts done Hd) as Hok. pose proof (done_hp_ok ts' done' Hd') as Hok'.
    pose proof (sel_own_ge ts t H4) as G. pose proof (sel_own_ge ts' t' H2) as G'.
    assert (O : 0 <= sel_own ts t) by (destruct H4; lia). assert (O' : 0 <= sel_own ts' t') by (destruct H2; lia).
    destruct (rta_jitter_aware_gen fuel t (sel_own ts t) done (sel_jit ts)) as [| |r] eqn:E; try discriminate.
    destruct (gen_better ts' ts done' done t' t fuel fuel' r HFd Hok' Hok He O' O) as [r' [E' [R1 R2]]].
    + apply sel_own_better; assumption.
    + assumption.
    + intro F. rewrite F in Ht. congruence.
    + rewrite E' in *.
      pose proof (gen_accept_ge _ _ _ _ _ _ Hok O E) as A1. pose proof (gen_accept_ge _ _ _ _ _ _ Hok' O' E') as A2.
      apply IH with (done := done ++ [(t, r)]); try assumption.
      * apply Forall2_app; [assumption|]. constructor; [|constructor].
        unfold better. cbn [fst snd]. unfold hcost, hper. cbn [fst]. pose proof He as [Z1 Z2 _ _ _ _ _ _ _].
        repeat split; try assumption. apply sel_jit_better; try assumption. lia.
      * apply Forall_app. split; [assumption|]. constructor; [|constructor]. split; [assumption|]. unfold hcost. cbn [fst snd]. lia.
      * apply Forall_app. split; [assumption|]. constructor; [|constructor]. split; [assumption|]. unfold hcost. cbn [fst snd]. lia.
Qed.

Lemma bound_sustainable : forall ts' ts fuel fuel' res,
  Forall2 easier ts' ts -> Forall wf_task ts' -> Forall wf_task ts ->
  bound_response_times fuel 1 ts = Accepted (true, res) -> (rta_fuel ts' <= fuel')%nat ->
  exists res', bound_response_times fuel' 1 ts' = Accepted (true, res') /\
    Forall2 (fun a' a => snd a' <= snd a) res' res.
Proof.
  intros ts' ts fuel fuel' res HF Hw' Hw H Hf.
  pose proof (bound_terminates ts' 1 fuel' Hw' Hf) as Ht.
  unfold bound_response_times in *.
  assert (E' : only_constrained_deadlines (map fp_task ts') = true).
  { apply forallb_forall. intros x Hx. apply in_map_iff in Hx. destruct Hx as [t' [<- Hin]].
    clear -HF Hin. induction HF; [inv Hin|]. destruct Hin as [->|Hin]; [|apply IHHF; assumption].
    destruct H. unfold constrained_deadline. apply Z.leb_le. assumption. }
  rewrite E' in *. destruct (only_constrained_deadlines (map fp_task ts)); cbn in H; [|discriminate].
  cbn in *. destruct (rta_all_better ts' ts fuel fuel' ts' ts [] [] res) as [res' [R1 R2]];
    try assumption; try constructor.
  exists res'. split; [assumption|]. clear -R2. induction R2; constructor; try assumption. destruct H as [_ [_ [H _]]]. assumption.
Qed.

Lemma rta_all_not_rejected : forall rta todo done, rta_all rta done todo <> Rejected.
Proof. induction todo; intros done; cbn; [discriminate|]. destruct (rta a done); [discriminate|discriminate|apply IHtodo]. Qed.

Lemma bound_not_rejected : forall fuel m ts, bound_response_times fuel m ts <> Rejected.
Proof. intros. unfold bound_response_times. destruct (negb _); [discriminate|apply rta_all_not_rejected]. Qed.

Lemma within_deadline : forall fuel no_cpus ts res,
  Forall (fun t => attr (fp_jitter t) = 0) ts ->
  bound_response_times fuel no_cpus ts = Accepted (true, res) ->
  length res = length ts /\
  forall i t r, nth_error res i = Some (t, r) -> nth_error ts i = Some t /\ r <= t_deadline (fp_task t).
Proof.
  intros fuel m ts res Hj H. destruct (bound_constrained _ _ _ _ H) as [-> Hcd].
  apply bound_spec in H; [|assumption]. destruct H as [F1 [F2 [F3 _]]]. split; [apply F3; reflexivity|].
  intros i t r Hr. destruct (F2 i _ Hr) as [Ht Hrta]. cbn [fst snd] in *. split; [assumption|].
  rewrite select_rta_eq in Hrta. apply gen_accept in Hrta. destruct Hrta as [d [-> [Hd _]]].
  rewrite Forall_forall in Hj. unfold get_jitter. rewrite (Hj t) by (eapply nth_error_In; eassumption). lia.
Qed.

Lemma jitter_witness :
  let t := FPTask (Task 1 1 1) None (Some 5) None None in
  Forall wf_task [t] /\ no_suspension [t] /\ no_legacy [t] /\
  bound_response_times 10 1 [t] = Accepted (true, [(t, 6)]) /\ t_deadline (fp_task t) < 6.
Proof. repeat split; repeat constructor; cbv; congruence. Qed.

Lemma bound_total : forall ts no_cpus, Forall wf_task ts -> exists fuel result,
  forall fuel', (fuel <= fuel')%nat -> bound_response_times fuel' no_cpus ts = Accepted result.
Proof.
  intros ts m Hwf. destruct (bound_response_times (rta_fuel ts) m ts) as [| |x] eqn:E.
  - exfalso. apply (bound_terminates ts m _ Hwf (le_n _) E).
  - exfalso. apply (bound_not_rejected _ _ _ E).
  - exists (rta_fuel ts), x. intros f' Hf. eapply bound_fuel; [eassumption|eassumption|discriminate].
Qed.

Lemma loop_lfp : forall fuel own hp hpj D d t,
  Forall (fun a => 0 <= t_cost (fp_task (fst a)) /\ 1 <= t_period (fp_task (fst a)) /\ 0 <= hpj a) hp ->
  rta_loop fuel own hp hpj D d = Accepted t ->
  t = own + zsum (map (fun a => t_cost (fp_task (fst a)) * cdiv (t + hpj a) (t_period (fp_task (fst a)))) hp) /\
  forall x, d <= x ->
    own + zsum (map (fun a => t_cost (fp_task (fst a)) * cdiv (x + hpj a) (t_period (fp_task (fst a)))) hp) <= x -> t <= x.
Proof.
  intros fuel own hp hpj D d t Hok H. split.
  - rewrite <- (proj2 (rta_loop_accept _ _ _ _ _ _ _ H)) at 1. apply rta_demand_eq.
  - intros x Hx Hf. pose proof (rta_loop_least own hp hpj D fuel d x Hok Hx) as HL. rewrite H in HL. apply HL.
    rewrite rta_demand_eq. exact Hf.
Qed.

Lemma no_susp_flag : forall ts, no_suspension ts -> has_self_suspensions ts = false.
Proof.
  intros ts H. induction H as [|t ts Ht H IH]; [reflexivity|]. cbn. fold (has_self_suspensions ts). rewrite IH.
  unfold attr in Ht. destruct (fp_suspended t) as [x|]; [|reflexivity]. subst. reflexivity.
Qed.
Lemma no_legacy_flag : forall ts, no_legacy ts -> uses_legacy_blocked_field ts = false.
Proof.
  intros ts H. induction H as [|t ts Ht H IH]; [reflexivity|]. cbn. fold (uses_legacy_blocked_field ts). rewrite IH, Ht.
  reflexivity.
Qed.

Lemma sound_new : forall fuel ts verdict res,
  Forall wf_task ts -> Forall (fun t => t_deadline (fp_task t) <= t_period (fp_task t)) ts ->
  no_suspension ts -> no_legacy ts ->
  bound_response_times fuel 1 ts = Accepted (verdict, res) ->
  (verdict = true -> length res = length ts) /\
  forall s sc, legal_seq (map promise_of ts) s -> valid_schedule (length ts) s sc ->
    fp_policy (length ts) s sc (allowed (fun t => attr (fp_prio_inversion t)) ts) ->
  forall i t r, nth_error res i = Some (t, r) -> nth_error ts i = Some t /\
  forall k, exists q, Z.of_nat q <= Z.of_nat (arr s i k) + r /\ completed s sc (i, k) q.
Proof.
  intros fuel ts v res Hwf Hcd Hs Hl H. apply bound_spec in H; [|assumption].
  unfold select_rta in H. rewrite no_legacy_flag, no_susp_flag in H by assumption.
  split; [apply H|]. intros s sc H1 H2 H3.
  eapply rta_sound with (own := fun t => get_prio_inversion t + t_cost (fp_task t)) (inversion := get_prio_inversion); eauto.
  eapply Forall_impl; [|exact Hwf]. intros t [? [? [? [? [? ?]]]]]. assumption.
Qed.

Lemma sound_legacy : forall fuel ts verdict res,
  Forall wf_task ts -> Forall (fun t => t_deadline (fp_task t) <= t_period (fp_task t)) ts ->
  no_suspension ts -> ~ no_legacy ts ->
  bound_response_times fuel 1 ts = Accepted (verdict, res) ->
  (verdict = true -> length res = length ts) /\
  forall s sc, legal_seq (map promise_of ts) s -> valid_schedule (length ts) s sc ->
    fp_policy (length ts) s sc (allowed (fun t => attr (fp_blocked t)) ts) ->
  forall i t r, nth_error res i = Some (t, r) -> nth_error ts i = Some t /\
  forall k, exists q, Z.of_nat q <= Z.of_nat (arr s i k) + r /\ completed s sc (i, k) q.
Proof.
  intros fuel ts v res Hwf Hcd Hs Hl H. apply bound_spec in H; [|assumption].
  unfold select_rta in H. rewrite no_susp_flag in H by assumption.
  assert (E : uses_legacy_blocked_field ts = true).
  { destruct (uses_legacy_blocked_field ts) eqn:E; [reflexivity|]. exfalso. apply Hl.
    apply Forall_forall. intros t Ht. destruct (fp_blocked t) eqn:F; [|reflexivity]. exfalso.
    assert (uses_legacy_blocked_field ts = true); [|congruence].
    apply existsb_exists. exists t. rewrite F. split; [assumption|reflexivity]. }
  rewrite E in H. split; [apply H|]. intros s sc H1 H2 H3.
  eapply rta_sound with (own := fun t => get_blocked t + t_cost (fp_task t)) (inversion := get_blocked); eauto.
  eapply Forall_impl; [|exact Hwf]. intros t [? [? [? [? [? ?]]]]]. assumption.
Qed.

Lemma exact_new : forall fuel ts verdict res,
  Forall wf_task ts -> Forall (fun t => t_deadline (fp_task t) <= t_period (fp_task t)) ts ->
  no_suspension ts -> no_legacy ts -> no_inversion ts ->
  bound_response_times fuel 1 ts = Accepted (verdict, res) ->
  exists s, legal_seq (map promise_of ts) s /\
    (exists sc, valid_schedule (length ts) s sc /\ fp_strict (length ts) s sc) /\
    forall sc, valid_schedule (length ts) s sc -> fp_strict (length ts) s sc ->
    (forall i t r, nth_error res i = Some (t, r) ->
       forall q, completed s sc (i, 0%nat) q <-> Z.of_nat (arr s i 0) + r <= Z.of_nat q) /\
    (verdict = false -> exists t, nth_error ts (length res) = Some t /\
       forall q, completed s sc (length res, 0%nat) q ->
         Z.of_nat (arr s (length res) 0) + t_deadline (fp_task t) < Z.of_nat q).
Proof.
  intros fuel ts v res Hwf Hcd Hs Hl Hi H.
  pose proof (sound_new fuel ts v res Hwf Hcd Hs Hl H) as [_ Hsound].
  apply bound_spec in H; [|assumption].
  unfold select_rta in H. rewrite no_legacy_flag, no_susp_flag in H by assumption.
  assert (Hown : forall t, In t ts -> get_prio_inversion t + t_cost (fp_task t) = t_cost (fp_task t)).
  { intros t Ht. unfold no_inversion in Hi. rewrite Forall_forall in Hi. unfold get_prio_inversion. rewrite (Hi t Ht). lia. }
  exists (critical (map promise_of ts)).
  assert (Hps := ps_ok ts Hwf).
  split; [apply critical_legal; exact Hps|].
  split; [apply critical_schedule_exists; assumption|].
  intros sc Hv Hst. split.
  - intros i t r Hr q. split.
    + intros Hq. eapply exact_accept with (own := fun t => get_prio_inversion t + t_cost (fp_task t)); eauto.
    + intros Hq. destruct (Hsound _ sc (critical_legal _ Hps) Hv) with (i := i) (t := t) (r := r) as [_ Hk]; [|assumption|].
      * intros j t1 t2 Hj Ht Hp. pose proof (strict_policy _ _ _ Hst j t1 t2 Hj Ht Hp) as Hlost. cbn beta in Hlost.
        unfold allowed. destruct (nth_error ts (fst j)) as [x|] eqn:E; [|assumption].
        apply nth_error_In in E. rewrite Forall_forall in Hwf. destruct (Hwf x E) as [_ [_ [_ [_ [_ ?]]]]]. lia.
      * destruct (Hk 0%nat) as [q' [H1 H2]]. apply completed_mono with q'; [lia|assumption].
  - intros Hf.
    destruct (exact_reject (fun t => get_prio_inversion t + t_cost (fp_task t)) fuel ts v res Hown Hwf H Hf) as [t [Ht Hrej]].
    exists t. split; [assumption|]. intros q Hq. specialize (Hrej sc Hv Hst q Hq).
    assert (0 <= get_jitter t); [|lia]. apply nth_error_In in Ht. rewrite Forall_forall in Hwf.
    destruct (Hwf t Ht) as [_ [_ [_ [? _]]]]. assumption.
Qed.

(** Without assuming what the code checks itself. *)
Lemma bound_unsupported : forall fuel m ts v res, bound_response_times fuel m ts = Accepted (v, res) ->
  (m = 1 /\ Forall (fun t => t_deadline (fp_task t) <= t_period (fp_task t)) ts) \/ (v = false /\ res = []).
Proof.
  intros fuel m ts v res H. unfold bound_response_times in H.
  destruct ((m =? 1) && only_constrained_deadlines (map fp_task ts)) eqn:E; cbn [negb] in H; [|inv H; right; split; reflexivity].
  left. apply andb_prop in E. destruct E as [E1 E]. apply Z.eqb_eq in E1. split; [assumption|].
  unfold only_constrained_deadlines in E. rewrite forallb_forall in E. apply Forall_forall. intros t Ht.
  specialize (E (fp_task t) (in_map fp_task ts t Ht)). unfold constrained_deadline in E. apply Z.leb_le in E. assumption.
Qed.

Lemma sound_new_any : forall fuel no_cpus ts verdict res,
  Forall wf_task ts -> no_suspension ts -> no_legacy ts ->
  bound_response_times fuel no_cpus ts = Accepted (verdict, res) ->
  (verdict = true -> no_cpus = 1 /\ length res = length ts) /\
  forall s sc, legal_seq (map promise_of ts) s -> valid_schedule (length ts) s sc ->
    fp_policy (length ts) s sc (allowed (fun t => attr (fp_prio_inversion t)) ts) ->
  forall i t r, nth_error res i = Some (t, r) -> nth_error ts i = Some t /\
  forall k, exists q, Z.of_nat q <= Z.of_nat (arr s i k) + r /\ completed s sc (i, k) q.
Proof.
  intros fuel m ts v res Hwf Hs Hl H. destruct (bound_unsupported _ _ _ _ _ H) as [[-> Hc]|[-> ->]].
  - destruct (sound_new fuel ts v res Hwf Hc Hs Hl H) as [H1 H2]. split; [|assumption]. intros Hv. split; [reflexivity|]. apply H1. assumption.
  - split; [discriminate|]. intros. destruct i; discriminate.
Qed.

Lemma sound_legacy_any : forall fuel no_cpus ts verdict res,
  Forall wf_task ts -> no_suspension ts -> ~ no_legacy ts ->
  bound_response_times fuel no_cpus ts = Accepted (verdict, res) ->
  (verdict = true -> no_cpus = 1 /\ length res = length ts) /\
  forall s sc, legal_seq (map promise_of ts) s -> valid_schedule (length ts) s sc ->
    fp_policy (length ts) s sc (allowed (fun t => attr (fp_blocked t)) ts) ->
  forall i t r, nth_error res i = Some (t, r) -> nth_error ts i = Some t /\
  forall k, exists q, Z.of_nat q <= Z.of_nat (arr s i k) + r /\ completed s sc (i, k) q.
Proof.
  intros fuel m ts v res Hwf Hs Hl H. destruct (bound_unsupported _ _ _ _ _ H) as [[-> Hc]|[-> ->]].
  - destruct (sound_legacy fuel ts v res Hwf Hc Hs Hl H) as [H1 H2]. split; [|assumption]. intros Hv. split; [reflexivity|]. apply H1. assumption.
  - split; [discriminate|]. intros. destruct i; discriminate.
Qed.
