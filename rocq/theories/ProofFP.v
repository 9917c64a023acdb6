(** Lemmas about fixed-priority response-time analysis (ModelFP). *)
From Coq Require Import ZArith List Bool Lia.
From Verif Require Import Base ModelTasks ModelFP SpecUni SpecFP ProofUni.
Import ListNotations.
Open Scope Z_scope.

(** ** The recurrence *)
Definition hcost (a : analysed) : Z := t_cost (fp_task (fst a)).
Definition hper (a : analysed) : Z := t_period (fp_task (fst a)).

Lemma rta_demand_eq : forall hp own hpj d,
  rta_demand own hp hpj d = own + zsum (map (fun a => hcost a * cdiv (d + hpj a) (hper a)) hp).
Proof.
  unfold rta_demand. induction hp as [|a hp IH]; intros; simpl; [lia|]. rewrite IH. unfold hcost, hper. lia.
Qed.

Definition hp_ok (hpj : analysed -> Z) (hp : list analysed) : Prop :=
  Forall (fun a => 0 <= hcost a /\ 1 <= hper a /\ 0 <= hpj a) hp.

Lemma rta_demand_mono : forall hp own hpj d d', hp_ok hpj hp -> d <= d' ->
  rta_demand own hp hpj d <= rta_demand own hp hpj d'.
Proof.
  intros hp own hpj d d' Hok Hd. rewrite !rta_demand_eq. apply Z.add_le_mono_l.
  apply zsum_map_le. intros a Ha. unfold hp_ok in Hok. rewrite Forall_forall in Hok.
  destruct (Hok a Ha) as [H1 [H2 H3]].
  assert (cdiv (d + hpj a) (hper a) <= cdiv (d' + hpj a) (hper a)) by (apply cdiv_le; lia). nia.
Qed.

Definition start (own : Z) (hp : list analysed) : Z := zsum (map hcost hp) + own.

Lemma zsum_map_zero : forall A (f : A -> Z) l, (forall a, In a l -> f a = 0) -> zsum (map f l) = 0.
Proof.
  induction l as [|a l IH]; intros H; simpl; [reflexivity|].
  rewrite (H a) by (left; reflexivity). rewrite IH; [lia|]. intros. apply H. right. assumption.
Qed.

Lemma start_le_demand : forall hp own hpj d, hp_ok hpj hp -> 0 <= own -> start own hp <= d ->
  start own hp <= rta_demand own hp hpj d.
Proof.
  intros hp own hpj d Hok Hown Hd. rewrite rta_demand_eq. unfold start in *. rewrite Z.add_comm. apply Z.add_le_mono_l.
  apply zsum_map_le. intros a Ha. unfold hp_ok in Hok. pose proof Hok as Hok'. rewrite Forall_forall in Hok.
  destruct (Hok a Ha) as [H1 [H2 H3]].
  destruct (Z.eq_dec (hcost a) 0) as [->|]; [lia|].
  assert (hcost a <= zsum (map hcost hp)).
  { apply zsum_in_le; [|assumption]. intros y Hy. apply Hok. assumption. }
  assert (1 <= cdiv (d + hpj a) (hper a)) by (apply cdiv_pos; lia). nia.
Qed.

Lemma rta_loop_accept : forall fuel own hp hpj D d x,
  rta_loop fuel own hp hpj D d = Accepted x -> x <= D /\ rta_demand own hp hpj x = x.
Proof.
  induction fuel as [|f IH]; intros own hp hpj D d x H; cbn in H; [discriminate|].
  destruct (Z.leb_spec d D); [|discriminate].
  destruct (Z.eqb_spec (rta_demand own hp hpj d) d) as [E|E].
  - inv H. split; assumption.
  - eapply IH. eassumption.
Qed.

(** any property of the start value closed under the recurrence holds at the end *)
Lemma rta_loop_inv : forall (P : Z -> Prop) own hp hpj D,
  (forall d, P d -> P (rta_demand own hp hpj d)) ->
  forall fuel d, P d ->
  match rta_loop fuel own hp hpj D d with
  | Accepted x => P x
  | Rejected => exists x, P x /\ D < x
  | OutOfFuel => True
  end.
Proof.
  intros P own hp hpj D Hstep. induction fuel as [|f IH]; intros d Hd; cbn; [exact I|].
  destruct (Z.leb_spec d D); [|exists d; split; assumption].
  destruct (Z.eqb_spec (rta_demand own hp hpj d) d); [assumption|].
  apply IH. apply Hstep. assumption.
Qed.

Lemma rta_loop_terminates : forall own hp hpj D, hp_ok hpj hp ->
  forall fuel d, d <= rta_demand own hp hpj d ->
  Z.max 0 (D - d + 1) < Z.of_nat fuel -> rta_loop fuel own hp hpj D d <> OutOfFuel.
Proof.
  intros own hp hpj D Hok. induction fuel as [|f IH]; intros d Hd Hf; [simpl in Hf; lia|].
  cbn [rta_loop]. destruct (Z.leb_spec d D); [|discriminate].
  destruct (Z.eqb_spec (rta_demand own hp hpj d) d); [discriminate|].
  apply IH; [apply rta_demand_mono; assumption|]. rewrite Nat2Z.inj_succ in Hf. lia.
Qed.

Lemma rta_loop_fuel : forall own hp hpj D fuel fuel' d x, (fuel <= fuel')%nat ->
  rta_loop fuel own hp hpj D d = x -> x <> OutOfFuel -> rta_loop fuel' own hp hpj D d = x.
Proof.
  intros own hp hpj D. induction fuel as [|f IH]; intros fuel' d x Hle H Hx; cbn in H; [congruence|].
  destruct fuel' as [|f']; [lia|]. cbn.
  destruct (d <=? D); [|assumption]. destruct (rta_demand own hp hpj d =? d); [assumption|].
  apply IH; try assumption. lia.
Qed.

(** The loop finds the least solution of the recurrence above its start value. *)
Lemma rta_loop_least : forall own hp hpj D fuel d t, hp_ok hpj hp ->
  d <= t -> rta_demand own hp hpj t <= t ->
  match rta_loop fuel own hp hpj D d with
  | Accepted x => x <= t
  | Rejected => D < t
  | OutOfFuel => True
  end.
Proof.
  intros own hp hpj D fuel d t Hok Hd Ht.
  pose proof (rta_loop_inv (fun x => x <= t) own hp hpj D) as H.
  assert (Hs : forall x, x <= t -> rta_demand own hp hpj x <= t).
  { intros x Hx. pose proof (rta_demand_mono hp own hpj x t Hok Hx). lia. }
  specialize (H Hs fuel d Hd). destruct (rta_loop fuel own hp hpj D d); [exact I| |assumption].
  destruct H as [x [H1 H2]]. lia.
Qed.

(** ** The loop over the tasks *)
Lemma rta_all_spec : forall rta todo done b res,
  rta_all rta done todo = Accepted (b, res) ->
  exists new, res = done ++ new /\ (length new <= length todo)%nat /\
    (forall i a, nth_error new i = Some a ->
        nth_error todo i = Some (fst a) /\ rta (fst a) (done ++ firstn i new) = Accepted (snd a)) /\
    (b = true -> length new = length todo) /\
    (b = false -> exists t, nth_error todo (length new) = Some t /\ rta t res = Rejected).
Proof.
  intros rta. induction todo as [|t todo IH]; intros done b res H; cbn in H.
  - inv H. exists []. rewrite app_nil_r. split; [reflexivity|]. split; [simpl; lia|].
    split; [intros [|?] ? F; discriminate|]. split; [reflexivity|discriminate].
  - destruct (rta t done) as [| |r] eqn:E; [discriminate| |].
    + inv H. exists []. rewrite app_nil_r. split; [reflexivity|]. split; [simpl; lia|].
      split; [intros [|?] ? F; discriminate|]. split; [discriminate|].
      intros _. exists t. split; [reflexivity|assumption].
    + apply IH in H. destruct H as [new [Hres [Hlen [Hnth [Ht Hf]]]]].
      exists ((t, r) :: new). rewrite Hres. rewrite <- app_assoc. simpl. split; [reflexivity|].
      split; [lia|]. split; [|split].
      * intros [|i] a Ha; simpl in Ha.
        -- inv Ha. simpl. rewrite app_nil_r. split; [reflexivity|assumption].
        -- destruct (Hnth i a Ha) as [H1 H2]. split; [assumption|]. simpl.
           rewrite <- app_assoc in H2. exact H2.
      * intros Hb. rewrite (Ht Hb). reflexivity.
      * intros Hb. destruct (Hf Hb) as [u [H1 H2]]. exists u. split; [assumption|].
        rewrite Hres in H2. rewrite <- app_assoc in H2. exact H2.
Qed.

Definition rta_facts (rta : fptask -> list analysed -> outcome Z) (ts : list fptask) (b : bool) (res : list analysed) : Prop :=
  (length res <= length ts)%nat /\
  (forall i a, nth_error res i = Some a ->
      nth_error ts i = Some (fst a) /\ rta (fst a) (firstn i res) = Accepted (snd a)) /\
  (b = true -> length res = length ts) /\
  (b = false -> exists t, nth_error ts (length res) = Some t /\ rta t res = Rejected).

Lemma bound_spec : forall fuel ts b res,
  Forall (fun t => t_deadline (fp_task t) <= t_period (fp_task t)) ts ->
  bound_response_times fuel 1 ts = Accepted (b, res) ->
  rta_facts (select_rta ts fuel) ts b res.
Proof.
  intros fuel ts b res Hd H. unfold bound_response_times in H.
  assert (only_constrained_deadlines (map fp_task ts) = true) as E.
  { unfold only_constrained_deadlines. apply forallb_forall. intros t Ht. apply in_map_iff in Ht.
    destruct Ht as [x [<- Hx]]. rewrite Forall_forall in Hd. specialize (Hd x Hx).
    unfold constrained_deadline. apply Z.leb_le. assumption. }
  rewrite E in H. cbn in H. apply rta_all_spec in H. destruct H as [new [-> [H1 [H2 [H3 H4]]]]].
  cbn [app] in *. unfold rta_facts. repeat split; auto; apply H2 in H; tauto.
Qed.

Lemma bound_constrained : forall fuel no_cpus ts res,
  bound_response_times fuel no_cpus ts = Accepted (true, res) ->
  no_cpus = 1 /\ Forall (fun t => t_deadline (fp_task t) <= t_period (fp_task t)) ts.
Proof.
  intros fuel m ts res H. unfold bound_response_times in H.
  destruct (Z.eqb_spec m 1); cbn [andb negb] in H; [|discriminate]. split; [assumption|].
  destruct (only_constrained_deadlines (map fp_task ts)) eqn:E; cbn [negb] in H; [|discriminate].
  unfold only_constrained_deadlines in E. rewrite forallb_forall in E. apply Forall_forall. intros t Ht.
  specialize (E (fp_task t) (in_map fp_task ts t Ht)). unfold constrained_deadline in E. apply Z.leb_le in E. assumption.
Qed.

Lemma firstn_res : forall rta ts b res i, rta_facts rta ts b res -> (i <= length res)%nat ->
  map fst (firstn i res) = firstn i ts.
Proof.
  intros rta ts b res i [H1 [H2 _]]. induction i as [|i IH]; intros Hi; [reflexivity|].
  destruct (nth_error_lt_Some _ res i ltac:(lia)) as [a Ha].
  destruct (H2 i a Ha) as [Ht _].
  assert (E1 : firstn (S i) res = firstn i res ++ [a]).
  { clear -Ha. revert res Ha. induction i; intros [|x res] Ha; try discriminate; cbn in *; [inv Ha; reflexivity|].
    rewrite IHi by assumption. reflexivity. }
  assert (E2 : firstn (S i) ts = firstn i ts ++ [fst a]).
  { clear -Ht. revert ts Ht. induction i; intros [|x ts] Ht; try discriminate; cbn in *; [inv Ht; reflexivity|].
    rewrite IHi by assumption. reflexivity. }
  rewrite E1, E2, map_app. rewrite <- IH by lia. reflexivity.
Qed.

(** The recurrence seen through the specification's promises. *)
Lemma hp_sum_promises : forall (hp : list analysed) (ts : list fptask) i d,
  map fst hp = firstn i ts -> (i <= length ts)%nat ->
  zsum (map (fun a => hcost a * cdiv (d + hp_get_jitter a) (hper a)) hp) =
  sumf (fun h => pr_cost (nth h (map promise_of ts) (Promise 0 1 0)) *
                 cdiv (d + pr_jitter (nth h (map promise_of ts) (Promise 0 1 0)))
                      (pr_period (nth h (map promise_of ts) (Promise 0 1 0)))) i.
Proof.
  intros hp ts i d Hm Hi.
  set (g := fun p => pr_cost p * cdiv (d + pr_jitter p) (pr_period p)).
  transitivity (zsum (map g (map promise_of (map fst hp)))).
  - rewrite !map_map. reflexivity.
  - rewrite Hm. rewrite (zsum_map_nth _ (Promise 0 1 0) g).
    rewrite map_length, firstn_length, Nat.min_l by lia.
    apply sumf_ext. intros h Hh. unfold g.
    assert (E : nth h (map promise_of (firstn i ts)) (Promise 0 1 0) = nth h (map promise_of ts) (Promise 0 1 0)); [|rewrite E; reflexivity].
    rewrite <- firstn_map. clear -Hh. revert i Hh. generalize (map promise_of ts). intros l.
    revert h. induction l as [|x l IH]; intros h i Hh; destruct i; try lia; simpl; [destruct h; reflexivity|].
    destruct h; [reflexivity|]. apply IH. lia.
Qed.

Definition jitter_rta (own : fptask -> Z) (fuel : nat) (t : fptask) (hp : list analysed) : outcome Z :=
  rta_jitter_aware_gen fuel t (own t) hp hp_get_jitter.

Lemma gen_accept : forall fuel t own hp hpj r, rta_jitter_aware_gen fuel t own hp hpj = Accepted r ->
  exists d, r = d + get_jitter t /\ d <= t_deadline (fp_task t) /\ rta_demand own hp hpj d = d /\
    rta_loop fuel own hp hpj (t_deadline (fp_task t)) (start own hp) = Accepted d.
Proof.
  intros fuel t own hp hpj r H. unfold rta_jitter_aware_gen in H.
  change (zsum (map (fun a => t_cost (fp_task (fst a))) hp) + own) with (start own hp) in H.
  destruct (rta_loop fuel own hp hpj (t_deadline (fp_task t)) (start own hp)) as [| |d] eqn:E; try discriminate.
  inv H. exists d. apply rta_loop_accept in E as E'. repeat split; tauto.
Qed.

Lemma gen_reject : forall fuel t own hp hpj, rta_jitter_aware_gen fuel t own hp hpj = Rejected ->
  rta_loop fuel own hp hpj (t_deadline (fp_task t)) (start own hp) = Rejected.
Proof.
  intros fuel t own hp hpj H. unfold rta_jitter_aware_gen in H.
  change (zsum (map (fun a => t_cost (fp_task (fst a))) hp) + own) with (start own hp) in H.
  destruct (rta_loop fuel own hp hpj (t_deadline (fp_task t)) (start own hp)); try discriminate. reflexivity.
Qed.

(** ** Soundness *)
Section Sound.
  Variables (own inversion : fptask -> Z) (fuel : nat) (ts : list fptask) (b : bool) (res : list analysed).
  Hypothesis Hown : forall t, own t = inversion t + t_cost (fp_task t).
  Hypothesis Hinv : Forall (fun t => 0 <= inversion t) ts.
  Hypothesis Hwf : Forall wf_task ts.
  Hypothesis Hcd : Forall (fun t => t_deadline (fp_task t) <= t_period (fp_task t)) ts.
  Hypothesis Hfacts : rta_facts (jitter_rta own fuel) ts b res.

  Lemma rta_sound : forall s sc,
    legal_seq (map promise_of ts) s -> valid_schedule (length ts) s sc ->
    fp_policy (length ts) s sc (fun i => match nth_error ts i with Some t => inversion t | None => 0 end) ->
    forall i t r, nth_error res i = Some (t, r) -> nth_error ts i = Some t /\
    forall k, exists q, Z.of_nat q <= Z.of_nat (arr s i k) + r /\ completed s sc (i, k) q.
  Proof.
    intros s sc Hlegal Hvalid Hpol i t r Hres. pose proof Hfacts as [F1 [F2 _]].
    destruct (F2 i _ Hres) as [Ht Hrta]. cbn [fst snd] in *. split; [assumption|]. intros k.
    unfold jitter_rta in Hrta. apply gen_accept in Hrta. destruct Hrta as [d [-> [Hd [Hfix _]]]].
    assert (Hi : (i < length ts)%nat) by (apply nth_error_Some; congruence).
    assert (Hir : (i < length res)%nat) by (apply nth_error_Some; congruence).
    rewrite rta_demand_eq, (hp_sum_promises _ ts i) in Hfix; [| |lia].
    2:{ eapply firstn_res; [eassumption|lia]. }
    assert (Hwt : wf_task t) by (rewrite Forall_forall in Hwf; apply Hwf; eapply nth_error_In; eassumption).
    assert (Hit : 0 <= inversion t) by (rewrite Forall_forall in Hinv; apply Hinv; eapply nth_error_In; eassumption).
    assert (Hct : t_deadline (fp_task t) <= t_period (fp_task t)) by (rewrite Forall_forall in Hcd; apply Hcd; eapply nth_error_In; eassumption).
    set (ps := map promise_of ts) in *.
    assert (Hper : Forall (fun p => 1 <= pr_period p /\ 0 <= pr_cost p /\ 0 <= pr_jitter p) ps).
    { apply Forall_forall. intros p Hp. apply in_map_iff in Hp. destruct Hp as [x [<- Hx]].
      rewrite Forall_forall in Hwf. destruct (Hwf x Hx) as [? [? [? [? ?]]]]. simpl. lia. }
    assert (Hpi : nth i ps (Promise 0 1 0) = promise_of t).
    { apply nth_error_nth. unfold ps. apply map_nth_error. assumption. }
    assert (Hsum : 0 <= hp_demand ps i d).
    { unfold hp_demand. apply sumf_nonneg. intros h Hh.
      destruct (prm_pos ps Hper i ltac:(unfold ps; rewrite map_length; lia) h ltac:(lia)) as [HT [HC HJ]].
      destruct (Z.le_gt_cases 0 d).
      - pose proof (cdiv_nonneg (d + pr_jitter (nth h ps (Promise 0 1 0))) (pr_period (nth h ps (Promise 0 1 0))) ltac:(lia) ltac:(lia)). nia.
      - exfalso. rewrite Hown in Hfix. destruct Hwt as [Hc _].
        (* a negative fixed point is impossible: the loop starts at a positive value *)
        assert (Hpos : 1 <= d); [|lia].
        destruct (F2 i _ Hres) as [_ Hrta]. cbn [fst snd] in Hrta. unfold jitter_rta in Hrta.
        apply gen_accept in Hrta. destruct Hrta as [d' [E [_ [_ Hl]]]]. assert (d' = d) by lia. subst d'.
        assert (Hmf : map fst (firstn i res) = firstn i ts) by (eapply firstn_res; [eassumption|lia]).
        assert (Hok : hp_ok hp_get_jitter (firstn i res)).
        { apply Forall_forall. intros a Ha. assert (In (fst a) (firstn i ts)) by (rewrite <- Hmf; apply in_map; assumption).
          assert (In (fst a) ts) by (rewrite <- (firstn_skipn i ts); apply in_or_app; left; assumption).
          rewrite Forall_forall in Hwf. destruct (Hwf _ H1) as [? [? [? [? ?]]]]. unfold hcost, hper, hp_get_jitter, get_jitter. lia. }
        assert (Hst : 1 <= start (own t) (firstn i res)).
        { unfold start. rewrite Hown. assert (0 <= zsum (map hcost (firstn i res))); [|lia].
          apply zsum_nonneg. intros x Hx. apply in_map_iff in Hx. destruct Hx as [a [<- Ha]].
          unfold hp_ok in Hok. rewrite Forall_forall in Hok. apply Hok. assumption. }
        pose proof (rta_loop_inv (fun x => start (own t) (firstn i res) <= x) (own t) (firstn i res) hp_get_jitter
          (t_deadline (fp_task t)) (fun x Hx => start_le_demand _ (own t) _ x Hok ltac:(rewrite Hown; lia) Hx) fuel
          (start (own t) (firstn i res)) (Z.le_refl _)) as Hinvt.
        rewrite Hl in Hinvt. lia. }
    rewrite Hown in Hfix. destruct Hwt as [Hc [HT [_ [HJ _]]]].
    fold (hp_demand ps i d) in Hfix.
    assert (Hd1 : 1 <= d) by lia.
    destruct (response_within ps s sc _ Hlegal Hper ltac:(unfold ps; rewrite map_length; exact Hvalid)
      ltac:(unfold ps; rewrite map_length; exact Hpol) i k ltac:(unfold ps; rewrite map_length; lia) (Z.to_nat d)) as [q [Hq1 Hq2]].
    - lia.
    - rewrite Ht. assumption.
    - rewrite Hpi. simpl. lia.
    - rewrite Ht, Hpi. rewrite Z2Nat.id by lia. simpl pr_cost. lia.
    - exists q. split; [|assumption]. rewrite Hpi in Hq1. simpl in Hq1. unfold get_jitter. lia.
  Qed.
End Sound.
