(** The recorded response times are the least solutions of the recurrences. *)
From Coq Require Import ZArith List Bool Lia.
From Verif Require Import Base ModelTasks ModelFP ModelGFP SpecUni SpecQPA SpecGlobal SpecGFP ProofUni ProofEDF ProofGlobal ProofGEDF ProofGEDFRta
  ProofGFP ProofGFPSound ProofGFPTop ProofGFPGuan.
Import ListNotations.
Open Scope Z_scope.

(** cost, period and response-time bound of an analysed task *)
Definition triple (nosl : bool) (a : ganalysed) : Z * Z * Z :=
  (t_cost (g_task (fst a)), t_period (g_task (fst a)), if nosl then t_deadline (g_task (fst a)) else snd a).

Lemma bert_demand_rec : forall nosl m hp t x, 0 <= x -> Forall ok_a hp -> wf_g t ->
  bert_demand nosl m hp t x = bert_recurrence m (t_cost (g_task t)) (attr (g_blocked t)) (attr (g_hpdirect t)) (map (triple nosl) hp) x.
Proof.
  intros nosl m hp t x Hx Hhp Ht. rewrite bert_demand_eq by assumption. unfold bert_recurrence, hp_work. rewrite map_map.
  rewrite Z.max_comm. do 4 f_equal. f_equal. apply map_ext_in. intros a Ha. rewrite Forall_forall in Hhp. specialize (Hhp a Ha).
  rewrite bert_term_wl by assumption. unfold triple. destruct Hhp as [[A1 [A2 [A3 [A4 _]]]] [A5 A6]]. rewrite packed_wl by lia. destruct nosl; f_equal; lia.
Qed.

Lemma least_bound_ext : forall f g lo r, (forall x, lo <= x -> f x = g x) -> least_bound f lo r -> least_bound g lo r.
Proof.
  intros f g lo r E [H1 [H2 H3]]. split; [assumption|]. split; [rewrite <- E by assumption; assumption|]. intros x X1 X2. apply H3; [assumption|]. rewrite E by assumption. assumption.
Qed.

(** what a verdict says about each task *)
Definition verdict (m : Z) (lo : gtask -> Z) (rec : list ganalysed -> gtask -> Z -> Z) (ts : list gtask) (ok : bool) (res : list ganalysed) : Prop :=
  map fst res = firstn (length res) ts /\
  (forall k t r, nth_error res k = Some (t, r) ->
    (Z.of_nat k < m -> r = lo t) /\ (m <= Z.of_nat k -> least_bound (rec (firstn k res) t) (lo t) r) /\ r <= t_deadline (g_task t)) /\
  (ok = true -> length res = length ts) /\
  (ok = false -> exists t, nth_error ts (length res) = Some t /\
    if Z.of_nat (length res) <? m then t_deadline (g_task t) < lo t
    else forall x, lo t <= x -> rec res t x <= x -> t_deadline (g_task t) < x).

Lemma firstn_map_app : forall (A : Type) (a b : list A), firstn (length a) (a ++ b) = a.
Proof. intros. rewrite firstn_app, Nat.sub_diag, firstn_all. cbn. apply app_nil_r. Qed.

Lemma verdict_intro : forall m lo rec a rta ts ok res, 
  Forall wf_g ts ->
  (forall hp t r, Forall ok_a hp -> wf_g t -> rta hp t = Accepted r -> ok_a (t, r)) ->
  (forall hp t r, Forall ok_a hp -> wf_g t -> rta hp t = Accepted r ->
     if Z.of_nat (length hp) <? m then r = lo t else least_bound (rec hp t) (lo t) r) ->
  (forall hp t, Forall ok_a hp -> wf_g t -> rta hp t = Rejected ->
     if Z.of_nat (length hp) <? m then t_deadline (g_task t) < lo t
     else forall x, lo t <= x -> rec hp t x <= x -> t_deadline (g_task t) < x) ->
  gfp_all a rta [] ts = GDone ok res -> verdict m lo rec ts ok res.
Proof.
  intros m lo rec a rta ts ok res Hw Hok Hacc Hrej H.
  destruct (gfp_all_shape _ _ _ _ _ _ H) as [tl [E [[rest [Erest [Htrue Hfalse]]] Hall]]]. cbn [app] in *. subst tl.
  assert (Hw' : Forall wf_g (map fst res)) by (rewrite Erest in Hw; apply Forall_app in Hw; apply Hw).
  pose proof (all_ok rta (map fst res) res Hok Hw' eq_refl (fun k Hk => proj2 (Hall k Hk))) as OK.
  assert (Fok : forall k, Forall ok_a (firstn k res)).
  { intros k. apply Forall_firstn. intros i d _ Hi. rewrite (nth_indep _ d da0) by assumption. apply OK. assumption. }
  split; [pose proof (firstn_map_app _ (map fst res) rest) as F; rewrite map_length in F; rewrite <- Erest in F; symmetry; exact F|].
  split; [|split].
  - intros k t r Hk. assert (Hl : (k < length res)%nat) by (apply nth_error_Some; congruence).
    assert (En : @nth ganalysed k res da0 = (t, r)) by (exact (nth_error_nth res k da0 Hk)). destruct (Hall k Hl) as [_ Hr]. unfold ganalysed in *. rewrite En in Hr. cbn [fst snd] in Hr.
    specialize (OK k Hl). rewrite En in OK. destruct OK as [O1 O2]. cbn [fst snd] in *.
    specialize (Hacc _ _ _ (Fok k) O1 Hr). rewrite firstn_len in Hacc by assumption.
    split; [|split; [|lia]].
    + intros L. destruct (Z.ltb_spec (Z.of_nat k) m); [assumption|lia].
    + intros L. destruct (Z.ltb_spec (Z.of_nat k) m); [lia|assumption].
  - intros X. rewrite Erest, (Htrue X), app_nil_r, map_length. reflexivity.
  - intros X. destruct (Hfalse X) as [t [rest' [E1 [_ E2]]]]. exists t. split.
    + rewrite Erest, E1, nth_error_app2 by (unfold ganalysed; rewrite map_length; apply Nat.le_refl). unfold ganalysed. rewrite map_length, Nat.sub_diag. reflexivity.
    + apply Hrej; [|  |assumption].
      * rewrite <- (firstn_all res). apply Fok.
      * rewrite Forall_forall in Hw. apply Hw. rewrite Erest, E1. apply in_or_app. right. left. reflexivity.
Qed.

Definition bert_rec (nosl : bool) (m : Z) (hp : list ganalysed) (t : gtask) : Z -> Z :=
  bert_recurrence m (t_cost (g_task t)) (attr (g_blocked t)) (attr (g_hpdirect t)) (map (triple nosl) hp).

Lemma bert_least : forall fuel nosl m ts ok res, 1 <= m -> Forall wf_g ts -> bert_is_schedulable fuel nosl m ts = GDone ok res ->
  verdict m (fun t => t_cost (g_task t) + attr (g_blocked t)) (bert_rec nosl m) ts ok res.
Proof.
  intros fuel nosl m ts ok res Hm Hw H. unfold bert_is_schedulable in H. revert H. apply verdict_intro; [assumption| | |].
  - intros hp t r Hhp Ht H. apply (bert_rta_spec fuel nosl m hp t r Hm Hhp Ht H).
  - intros hp t r Hhp Ht H. destruct (bert_rta_spec fuel nosl m hp t r Hm Hhp Ht H) as [_ [_ G]].
    destruct (Z.of_nat (length hp) <? m); [assumption|]. destruct G as [G _]. revert G. apply least_bound_ext.
    intros x Hx. destruct Ht as [W1 [W2 [W3 [W4 W5]]]] eqn:E. apply bert_demand_rec; try assumption. lia.
  - intros hp t Hhp Ht H. pose proof Ht as [W1 [W2 [W3 [W4 W5]]]]. unfold bert_rta in H. destruct (Z.of_nat (length hp) <? m).
    + destruct (Z.ltb_spec (t_deadline (g_task t)) (t_cost (g_task t) + attr (g_blocked t))); [assumption|discriminate].
    + intros x X1 X2. unfold bert_rec in X2. rewrite <- bert_demand_rec in X2 by (assumption || lia). revert X1 X2.
      apply (grta_reject (bert_demand nosl m hp t) (t_cost (g_task t) + attr (g_blocked t))) with (fuel := fuel) (time := t_cost (g_task t) + attr (g_blocked t)); try assumption.
      * intros. apply bert_demand_mono; try assumption; lia.
      * intros. apply bert_demand_ge; try assumption; lia.
      * lia.
      * apply bert_demand_ge; try assumption; lia.
      * intros; assumption.
Qed.

(** ** Guan *)
Lemma omega_exists : forall l c, exists carry, length carry = length l /\ (count_occ bool_dec carry true <= c)%nat /\
  zsum (map (fun p => let '((a, b), x) := p in if x : bool then a else b) (combine l carry)) = omega c l.
Proof.
  induction l as [|[a b] l IH]; intros c; [exists []; repeat split; cbn; lia|]. cbn [omega]. destruct c as [|c].
  - destruct (IH 0%nat) as [car [H1 [H2 H3]]]. exists (false :: car). cbn [length combine map zsum count_occ]. rewrite H3.
    split; [lia|]. split; [destruct (bool_dec false true); [discriminate|lia]|reflexivity].
  - destruct (Z.le_gt_cases (b + omega (S c) l) (a + omega c l)) as [L|L].
    + destruct (IH c) as [car [H1 [H2 H3]]]. exists (true :: car). cbn [length combine map zsum count_occ]. rewrite H3.
      split; [lia|]. split; [destruct (bool_dec true true); [lia|congruence]|lia].
    + destruct (IH (S c)) as [car [H1 [H2 H3]]]. exists (false :: car). cbn [length combine map zsum count_occ]. rewrite H3.
      split; [lia|]. split; [destruct (bool_dec false true); [discriminate|lia]|lia].
Qed.

Lemma omega_upper : forall l c carry, length carry = length l -> (count_occ bool_dec carry true <= c)%nat ->
  zsum (map (fun p => let '((a, b), x) := p in if x : bool then a else b) (combine l carry)) <= omega c l.
Proof.
  induction l as [|[a b] l IH]; intros c carry Hl Hc; [cbn; lia|]. destruct carry as [|x carry]; [discriminate|]. cbn [length] in Hl.
  injection Hl as Hl. cbn [combine map zsum omega]. cbn [count_occ] in Hc. destruct (bool_dec x true) as [->|E].
  - destruct c as [|c]; [lia|]. specialize (IH c carry Hl ltac:(lia)). lia.
  - destruct x; [congruence|]. destruct c as [|c]; specialize (IH _ carry Hl Hc); lia.
Qed.

Lemma chosen_gci : forall tk x hp carry, Forall ok_a hp -> 0 <= x -> length carry = length hp ->
  chosen_work (t_cost tk) x (map (triple false) hp) carry =
  zsum (map (fun p => let '((a, b), c) := p in if c : bool then a else b) (combine (map (fun a => (gci tk x a, gnc tk x a)) hp) carry)).
Proof.
  intros tk x hp. unfold chosen_work. induction hp as [|a hp IH]; intros carry Hhp Hx Hl; [reflexivity|]. destruct carry as [|c carry]; [discriminate|].
  injection Hl as Hl. inversion_clear Hhp as [|? ? Ha Hhp']. cbn [map combine zsum]. rewrite <- (IH carry) by assumption. f_equal.
  unfold triple. destruct c.
  - rewrite gci_eq. f_equal. unfold carry_work, ci_bound. rewrite (Z.max_comm _ 0). f_equal.
    rewrite (Z.max_comm _ 0), (Z.mul_comm (t_cost (g_task (fst a)))). f_equal. rewrite Z.min_comm. f_equal. rewrite Z.max_comm. reflexivity.
  - rewrite gnc_eq by assumption. f_equal. unfold no_carry_work. apply packed_wl; destruct Ha as [[A1 [A2 [A3 [A4 _]]]] [A5 A6]]; lia.
Qed.

Lemma total_worst : forall (m : nat) tk hp x, (1 <= m)%nat -> Forall ok_a hp -> 0 <= x ->
  worst_work m (t_cost tk) x (map (triple false) hp) (total_interference tk hp (Z.of_nat m) x).
Proof.
  intros m tk hp x Hm Hhp Hx. rewrite total_omega by assumption. replace (Z.to_nat (Z.of_nat m - 1)) with (m - 1)%nat by lia. split.
  - destruct (omega_exists (map (fun a => (gci tk x a, gnc tk x a)) hp) (m - 1)) as [carry [H1 [H2 H3]]]. rewrite map_length in H1. exists carry.
    rewrite map_length. split; [assumption|]. split; [lia|]. rewrite chosen_gci by assumption. assumption.
  - intros carry H1 H2. rewrite map_length in H1. rewrite chosen_gci by assumption. apply omega_upper; [rewrite map_length; assumption|lia].
Qed.

Lemma guan_least : forall fuel (m : nat) ts ok res, (1 <= m)%nat -> Forall wf_g ts -> guan_is_schedulable fuel (Z.of_nat m) ts = GDone ok res ->
  verdict (Z.of_nat m) (fun t => t_cost (g_task t)) (guan_demand (Z.of_nat m)) ts ok res.
Proof.
  intros fuel m ts ok res Hm Hw H. unfold guan_is_schedulable in H. revert H. apply verdict_intro; [assumption| | |].
  - intros hp t r Hhp Ht H. apply (guan_rta_spec fuel (Z.of_nat m) hp t r ltac:(lia) Hhp Ht H).
  - intros hp t r Hhp Ht H. destruct (guan_rta_spec fuel (Z.of_nat m) hp t r ltac:(lia) Hhp Ht H) as [_ G].
    destruct (Z.of_nat (length hp) <? Z.of_nat m); [assumption|]. apply G.
  - intros hp t Hhp Ht H. pose proof Ht as [W1 [W2 [W3 [W4 W5]]]]. unfold guan_rta in H. destruct (Z.of_nat (length hp) <? Z.of_nat m).
    + destruct (Z.ltb_spec (t_deadline (g_task t)) (t_cost (g_task t))); [assumption|discriminate].
    + apply (grta_reject (guan_demand (Z.of_nat m) hp t) (t_cost (g_task t))) with (fuel := fuel) (time := t_cost (g_task t)); try assumption.
      * intros. apply guan_demand_mono; try assumption; lia.
      * intros. apply guan_demand_ge; try assumption; lia.
      * lia.
      * apply guan_demand_ge; try assumption; lia.
      * intros; assumption.
Qed.
