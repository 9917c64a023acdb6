(** Combinations of the heuristics, and what their outcome means at run time. *)
From Coq Require Import ZArith QArith List Bool Lia Arith Permutation Setoid Morphisms.
From Verif Require Import Base ModelTasks ModelNative ModelQPA SpecUni SpecQPA ProofUni ProofEDF ProofQPA PropQPA ModelAPA SpecAPA ProofAPA ProofAPAHeur.
Import ListNotations.
Open Scope Z_scope.

Lemma filter_split {A} (p q : A -> bool) l : (forall x, q x = negb (p x)) -> Permutation l (filter p l ++ filter q l).
Proof.
  intros H. induction l as [|x l IH]; [constructor|]. cbn [filter]. rewrite H. destruct (p x); cbn [negb app]; [constructor; exact IH|]. rewrite <- Permutation_middle. constructor. exact IH.
Qed.

Lemma good_perm a b m : Permutation a b -> good (a, m) -> good (b, m).
Proof. intros P [G1 G2]. split; [eapply Permutation_Forall; eassumption|exact G2]. Qed.

Section WithIter.
  Variable iter : nat -> list atask -> list atask.
  Hypothesis iter_perm : forall k l, Permutation (iter k l) l.

  Lemma plain_tot b rounds tasks pre : (Z.to_nat (sum_cost tasks) < rounds)%nat -> good (tasks, pre) -> (b = false -> NoDup (map a_id tasks)) ->
    tot (fun f => plain iter f b rounds tasks pre) (post false 0 tasks pre).
  Proof.
    intros HR G N. unfold plain. destruct b.
    - eapply tot_weaken; [apply double_wfd_tot; [exact iter_perm|lia|exact HR|exact G]|]. intros x [H _]. exact H.
    - eapply tot_weaken; [apply ffd_tot; [exact iter_perm|lia|exact G|apply N; reflexivity]|]. intros x [H _]. exact H.
  Qed.

  Lemma splitting_tot b rounds tasks pre th : 0 <= th -> (Z.to_nat (sum_cost tasks) < rounds)%nat -> good (tasks, pre) -> (b = false -> NoDup (map a_id tasks)) ->
    tot (fun f => splitting iter f b rounds tasks pre th) (fun x => post true th tasks pre x /\ (b = true -> maximal true th x)).
  Proof.
    intros T0 HR G N. unfold splitting. destruct b.
    - eapply tot_weaken; [apply double_wfd_tot; [exact iter_perm|lia|exact HR|exact G]|]. intros x [H1 H2]. split; [exact H1|intros _; exact H2].
    - eapply tot_weaken; [apply ffd_tot; [exact iter_perm|lia|exact G|apply N; reflexivity]|]. intros x [H _]. split; [exact H|discriminate].
  Qed.

  Lemma good_start tasks : Forall wf_atask tasks -> good (tasks, []).
  Proof. intros W. split; [exact W|]. intros c. cbn. split; [constructor|]. intros t Ht. cbn. exact Ht. Qed.

  Lemma edf_assign_tot b1 b2 rounds tasks th small : 0 <= th -> (Z.to_nat (sum_cost tasks) < rounds)%nat -> Forall wf_atask tasks -> (b1 && b2 = false -> NoDup (map a_id tasks)) ->
    tot (fun f => edf_assign_split iter f b1 b2 rounds tasks th small) (fun x => steps th (tasks, []) x /\ (b2 = true -> maximal true th x)).
  Proof.
    intros T0 HR W N. pose proof (good_start tasks W) as G. unfold edf_assign_split.
    assert (FIRST : tot (fun f => plain iter f b1 rounds tasks []) (fun x => steps th (tasks, []) x)).
    { eapply tot_weaken; [apply plain_tot; [exact HR|exact G|intros E; apply N; rewrite E; reflexivity]|]. intros x H. apply H. discriminate. }
    eapply tot_bind with (P := fun x => steps th (tasks, []) x).
    - destruct (negb (th =? 0) && small); [|exact FIRST]. pose proof (filter_split (fun t => a_cost t <? th * 2) (fun t => th * 2 <=? a_cost t) tasks (fun x => Z.leb_antisym _ _)) as PS.
      set (sm := filter (fun t => a_cost t <? th * 2) tasks) in *. set (rest := filter (fun t => th * 2 <=? a_cost t) tasks) in *. clearbody sm rest.
      assert (SC : sum_cost tasks = sum_cost sm + sum_cost rest) by (rewrite (sum_cost_perm _ _ PS); unfold sum_cost; rewrite map_app, zsum_app; reflexivity).
      pose proof (Permutation_Forall PS W) as W2. apply Forall_app in W2. destruct W2 as [Ws Wr]. pose proof (sum_cost_nonneg _ Ws). pose proof (sum_cost_nonneg _ Wr).
      assert (NS : b1 && b2 = false -> NoDup (map a_id (sm ++ rest))) by (intros E; eapply Permutation_NoDup; [apply Permutation_map; exact PS|apply N; exact E]).
      destruct sm as [|t0 sm0]; [exact FIRST|]. set (sm := t0 :: sm0) in *.
      eapply tot_bind; [apply plain_tot; [lia|apply good_start; exact Ws|intros E; specialize (NS ltac:(rewrite E; reflexivity)); rewrite map_app in NS; apply nodup_app_l in NS; exact NS]|].
      intros [un m] H1. specialize (H1 th ltac:(discriminate)). pose proof (steps_frame th rest _ _ H1) as H1f. cbn [fst snd] in H1f.
      pose proof (good_perm _ _ _ PS G) as Gs. pose proof (steps_good _ _ _ H1f Gs) as G2. pose proof (steps_cost _ _ _ H1f Gs) as C2. cbn [fst] in C2. rewrite <- (sum_cost_perm _ _ PS) in C2.
      eapply tot_weaken; [apply plain_tot; [lia|exact G2|]|].
      + intros E. apply orb_false_iff in E. destruct E as [E1 E2]. eapply from_nodup; [apply (steps_from _ _ _ H1f (sm ++ rest)), from_refl; reflexivity|apply NS; rewrite E1; reflexivity].
      + intros x H2. eapply steps_perm_l; [symmetry; exact PS|]. eapply steps_trans; [exact H1f|apply H2; discriminate].
    - intros [un m] H1. destruct un as [|t0 un0]; [apply tot_ret; split; [exact H1|intros _; constructor]|]. set (un := t0 :: un0) in *.
      pose proof (steps_good _ _ _ H1 G) as G2. pose proof (steps_cost _ _ _ H1 G) as C2. cbn [fst] in C2.
      eapply tot_weaken; [apply (splitting_tot b2 rounds un m th T0); [lia|exact G2|]|].
      + intros E. eapply from_nodup; [apply (steps_from _ _ _ H1 tasks), from_refl; reflexivity|apply N; rewrite E; apply andb_false_r].
      + intros x [H2 H3]. split; [|exact H3]. eapply steps_trans; [exact H1|apply H2; reflexivity].
  Qed.
End WithIter.

(** * Meta-heuristics *)

(** a heuristic that only makes legal steps *)
Definition safe_heuristic (th : Z) (h : nat -> list atask -> mapping -> res (list atask * mapping)) (all : list atask) : Prop :=
  forall tasks pre, good (tasks, pre) -> NoDup (map a_id tasks) -> sum_cost tasks <= sum_cost all -> tot (fun f => h f tasks pre) (fun x => steps th (tasks, pre) x).

Section Paf.
  Variables (th : Z) (pa reg : nat -> list atask -> mapping -> res (list atask * mapping)) (all : list atask).
  Hypothesis (Hpa : safe_heuristic th pa all) (Hreg : safe_heuristic th reg all) (W : Forall wf_atask all) (N : NoDup (map a_id all)).

  Definition fresh (ids : list Z) : list atask := filter (fun t => negb (existsb (Z.eqb (a_id t)) ids)) all.

  Lemma paf_tot : forall rounds ids, (length (fresh ids) < rounds)%nat -> tot (fun f => paf_loop rounds (pa f) (reg f) all ids) (fun x => steps th (all, []) x).
  Proof.
    induction rounds as [|k IH]; intros ids HR; [lia|]. cbn [paf_loop]. set (to_pa := filter (fun t => existsb (Z.eqb (a_id t)) ids) all). fold (fresh ids).
    assert (PS : Permutation all (to_pa ++ fresh ids)) by (apply filter_split; reflexivity).
    pose proof (Permutation_Forall PS W) as W2. apply Forall_app in W2. destruct W2 as [Wp Wr]. pose proof (sum_cost_nonneg _ Wp). pose proof (sum_cost_nonneg _ Wr).
    assert (SC : sum_cost all = sum_cost to_pa + sum_cost (fresh ids)) by (rewrite (sum_cost_perm _ _ PS); unfold sum_cost; rewrite map_app, zsum_app; reflexivity).
    assert (NS : NoDup (map a_id (to_pa ++ fresh ids))) by (eapply Permutation_NoDup; [apply Permutation_map; exact PS|exact N]).
    eapply tot_bind; [apply Hpa; [apply good_start; exact Wp|rewrite map_app in NS; apply nodup_app_l in NS; exact NS|lia]|]. intros [un m] H1.
    pose proof (steps_frame th (fresh ids) _ _ H1) as H1f. cbn [fst snd] in H1f. assert (Gs : good (to_pa ++ fresh ids, [])) by (eapply good_perm; [exact PS|apply good_start; exact W]).
    assert (H1g : steps th (all, []) (fresh ids ++ un, m)) by (eapply steps_perm_l; [symmetry; exact PS|]; eapply steps_trans; [exact H1f|apply steps_refl, Permutation_app_comm]).
    pose proof (steps_good _ _ _ H1g (good_start _ W)) as G2. pose proof (steps_cost _ _ _ H1g (good_start _ W)) as C2. cbn [fst] in C2. pose proof (steps_from _ _ _ H1g all (from_refl _ _ (Permutation_refl _))) as FR. cbn [fst] in FR.
    eapply tot_bind; [apply Hreg; [exact G2|eapply from_nodup; eassumption|exact C2]|]. intros [un2 m2] H2. destruct un2 as [|t2 r2]; [apply tot_ret; eapply steps_trans; eassumption|]. destruct un as [|t1 r1]; [|apply tot_ret; eapply steps_trans; eassumption].
    apply IH. rewrite app_nil_r in *. eapply Nat.lt_le_trans; [|apply Nat.lt_succ_r; exact HR].
    (* a task that failed now is pre-assigned next time *)
    pose proof (steps_from _ _ _ H2 (fresh ids) (from_refl _ _ (Permutation_refl _))) as FR2. cbn [fst] in FR2. destruct (from_in _ _ t2 FR2 (or_introl eq_refl)) as [u [U1 [U2 _]]].
    assert (SH : forall l ids', In u l -> existsb (Z.eqb (a_id u)) ids = false -> existsb (Z.eqb (a_id u)) ids' = true -> (forall t : atask, existsb (Z.eqb (a_id t)) ids = true -> existsb (Z.eqb (a_id t)) ids' = true) ->
      (length (filter (fun t => negb (existsb (Z.eqb (a_id t)) ids')) l) < length (filter (fun t => negb (existsb (Z.eqb (a_id t)) ids)) l))%nat).
    { clear. intros l ids' I A B M. assert (LE : forall l, (length (filter (fun t : atask => negb (existsb (Z.eqb (a_id t)) ids')) l) <= length (filter (fun t : atask => negb (existsb (Z.eqb (a_id t)) ids)) l))%nat).
      { induction l0 as [|x l0 IHl]; [apply le_n|]. cbn [filter]. specialize (M x). destruct (existsb (Z.eqb (a_id x)) ids) eqn:E1; [rewrite (M eq_refl); cbn; exact IHl|]. destruct (existsb (Z.eqb (a_id x)) ids'); cbn; lia. }
      induction l as [|x l IHl]; [destruct I|]. cbn [filter]. destruct I as [->|I].
      - rewrite A, B. cbn. specialize (LE l). lia.
      - specialize (IHl I). specialize (M x). destruct (existsb (Z.eqb (a_id x)) ids) eqn:E1; [rewrite (M eq_refl); cbn; exact IHl|]. destruct (existsb (Z.eqb (a_id x)) ids'); cbn; lia. }
    unfold fresh in U1. apply filter_In in U1. destruct U1 as [U1 U1b]. apply SH; [exact U1|destruct (existsb (Z.eqb (a_id u)) ids); [discriminate|reflexivity]| |].
    - rewrite existsb_app. apply orb_true_iff. left. cbn [map existsb]. rewrite U2, Z.eqb_refl. reflexivity.
    - intros t Ht. rewrite existsb_app, Ht. apply orb_true_r.
  Qed.

  Lemma meta_paf_tot rounds : (length all < rounds)%nat -> tot (fun f => meta_preassign_failures rounds (pa f) (reg f) all) (fun x => steps th (all, []) x).
  Proof.
    intros HR. unfold meta_preassign_failures. eapply tot_bind; [apply Hreg; [apply good_start; exact W|exact N|lia]|]. intros [un m] H. destruct un as [|t0 un0]; [apply tot_ret; exact H|]. apply paf_tot. eapply Nat.le_lt_trans; [|exact HR]. unfold fresh. generalize (fun t : atask => negb (existsb (Z.eqb (a_id t)) (map a_id (t0 :: un0)))). intros p. clear. induction all as [|x l IH]; [apply le_n|]. cbn [filter]. destruct (p x); cbn [length]; lia.
  Qed.
End Paf.

(** * Period transformation *)

Lemma transform_dominates t k x : wf_atask t -> 1 <= k -> a_period t <= a_deadline t -> 1 <= a_period t / k ->
  a_cost t * jobs_due (etask_of t) x <= a_cost (period_transform k t) * jobs_due (etask_of (period_transform k t)) x.
Proof.
  intros [W1 [W2 W3]] K D P1. unfold jobs_due, etask_of, period_transform. cbn [a_cost a_period a_deadline e_period e_deadline].
  pose proof (cdiv_spec (a_cost t) k ltac:(lia)) as CS. pose proof (div_spec (a_period t) k ltac:(lia)) as PS. pose proof (div_spec (a_deadline t) k ltac:(lia)) as DS.
  set (C' := cdiv (a_cost t) k) in *. set (T' := a_period t / k) in *. set (D' := a_deadline t / k) in *. assert (C'0 : 1 <= C') by nia.
  destruct (Z.ltb_spec x (a_deadline t)) as [A|A]; [destruct (Z.ltb_spec x D'); [lia|]; pose proof (Z.div_pos (x - D') T' ltac:(lia) ltac:(lia)); nia|].
  assert (DD : D' <= x) by (assert (D' <= a_deadline t) by nia; lia). destruct (Z.ltb_spec x D'); [lia|].
  pose proof (div_spec (x - a_deadline t) (a_period t) ltac:(lia)) as XS. set (n := (x - a_deadline t) / a_period t) in *. assert (N0 : 0 <= n) by (apply Z.div_pos; lia).
  assert (L : (n + 1) * k - 1 <= (x - D') / T').
  { apply Z.div_le_lower_bound; [lia|]. assert ((k - 1) * T' + D' <= a_deadline t) by nia. assert (n * (k * T') <= n * a_period t) by (apply Z.mul_le_mono_nonneg_l; lia). nia. }
  set (m := (x - D') / T') in *. assert (a_cost t <= C' * k) by lia. nia.
Qed.

Lemma transform_wf t k : wf_atask t -> 1 <= k -> cdiv (a_cost t) k <= a_period t / k -> a_period t <= a_deadline t -> wf_atask (period_transform k t).
Proof.
  intros [W1 [W2 W3]] K F D. unfold wf_atask, period_transform. cbn. pose proof (cdiv_spec (a_cost t) k ltac:(lia)) as CS. assert (1 <= cdiv (a_cost t) k) by nia.
  assert (a_period t / k <= a_deadline t / k) by (apply Z.div_le_mono; lia). pose proof (div_spec (a_deadline t) k ltac:(lia)). assert (a_deadline t / k <= a_deadline t) by nia. lia.
Qed.

(** [t'] is [t] or a transformation of it *)
Definition transform_of (t t' : atask) : Prop := t' = t \/ exists k, 1 <= k /\ cdiv (a_cost t) k <= a_period t / k /\ t' = period_transform k t.

Lemma try_periods_of t l t' : 1 <= a_period t -> Forall (fun p => 1 <= p) l -> try_periods t l = Some t' -> transform_of t t'.
Proof.
  intros P. induction l as [|p l IH]; intros F; cbn [try_periods]; [discriminate|]. inversion F; subst. destruct (Z.eqb_spec (a_period t mod p) 0) as [E|_]; cbn [andb]; [|apply IH; assumption]. destruct (is_feasible_pt t (a_period t / p)) eqn:EF; [|apply IH; assumption].
  intros H. inversion H; subst. right. exists (a_period t / p). unfold is_feasible_pt in EF. apply Z.leb_le in EF. split; [|split; [exact EF|reflexivity]]. pose proof (Z_div_mod_eq_full (a_period t) p). nia.
Qed.

Lemma transform_task_of cands thr lim ra failed t : 1 <= a_period t -> Forall (fun p => 1 <= p) cands -> transform_of t (transform_task cands thr lim ra failed t).
Proof.
  intros P F. unfold transform_task. destruct (_ && _); [|left; reflexivity]. destruct (try_periods t (rev _)) as [t'|] eqn:E.
  - eapply try_periods_of; [exact P| |exact E]. apply Forall_rev. apply Forall_forall. intros x Hx. apply filter_In in Hx. rewrite Forall_forall in F. apply F, Hx.
  - clear E. destruct (try_periods t (filter _ _)) as [t'|] eqn:E; [|left; reflexivity]. eapply try_periods_of; [exact P| |exact E]. apply Forall_forall. intros x Hx. apply filter_In in Hx. rewrite Forall_forall in F. apply F, Hx.
Qed.

Lemma map_transform g all : Forall wf_atask all -> (forall t, 1 <= a_period t -> transform_of t (g t)) -> Forall2 transform_of all (map g all).
Proof. intros W H. induction W as [|t l Wt Wl IH]; cbn [map]; [apply Forall2_nil|]. apply Forall2_cons; [apply H; destruct Wt as [_ [? _]]; assumption|exact IH]. Qed.

Section Rp.
  Variables (th : Z) (h : nat -> list atask -> res (list atask * mapping)) (all : list atask) (cands : list Z).
  (** the heuristic works for every transformed set *)
  Hypothesis (Hh : forall tasks, Forall2 transform_of all tasks -> tot (fun f => h f tasks) (fun x => steps th (tasks, []) x)).
  Hypothesis (Hc : Forall (fun p => 1 <= p) cands) (W : Forall wf_atask all).

  Definition rp_post (x : list atask * mapping) : Prop := exists tasks, Forall2 transform_of all tasks /\ steps th (tasks, []) x.

  Lemma rp_loop_tot thr ra : forall limits failed last, rp_post last -> tot (fun f => rp_loop (h f) all cands thr ra limits failed last) rp_post.
  Proof.
    induction limits as [|l r IH]; intros failed last HL; cbn [rp_loop]; [apply tot_ret; exact HL|].
    assert (F : Forall2 transform_of all (map (transform_task cands thr l ra failed) all)) by (apply map_transform; [exact W|]; intros t Ht; apply transform_task_of; assumption).
    eapply tot_bind; [apply Hh; exact F|]. intros [un m] H. destruct un as [|t0 un0]; [apply tot_ret; eexists; split; [exact F|exact H]|]. apply IH. eexists; split; [exact F|exact H].
  Qed.

  Lemma meta_rp_tot thr ra : tot (fun f => meta_reduce_periods (h f) all cands thr ra) rp_post.
  Proof.
    unfold meta_reduce_periods. assert (F : Forall2 transform_of all all) by (rewrite <- (map_id all) at 2; apply map_transform; [exact W|]; intros t _; left; reflexivity).
    eapply tot_bind; [apply Hh; exact F|]. intros [un m] H. destruct un as [|t0 un0]; [apply tot_ret; exists all; split; assumption|]. apply rp_loop_tot. exists all. split; assumption.
  Qed.
End Rp.

(** * Run time *)

Lemma pieces_sum th t ps : pieces th t ps None -> zsum (map (fun p => a_cost (snd p)) ps) = a_cost t /\ zsum (map (fun p => a_deadline (snd p)) ps) = a_deadline t /\ Forall (fun p => In (fst p) (a_aff t) /\ a_period (snd p) = a_period t) ps.
Proof.
  intros H. remember None as o eqn:E. induction H as [t|t c Hc|t c w ps rest Hc Hw H1 H2 H3 IH]; [discriminate| |].
  - cbn. split; [lia|]. split; [lia|]. constructor; [split; [exact Hc|reflexivity]|constructor].
  - destruct (IH E) as [I1 [I2 I3]]. cbn [map zsum snd fst]. rewrite I1, I2. unfold chunk, leftover. cbn. split; [lia|]. split; [lia|]. constructor; [split; [exact Hc|reflexivity]|exact I3].
Qed.

Lemma nth_etask l i t d : nth_error l i = Some t -> nth i (map etask_of l) d = etask_of t.
Proof. intros H. apply nth_error_nth. apply map_nth_error. exact H. Qed.

Lemma runtime (after : nat -> list atask) (s : nat -> jobseq) (sc : nat -> schedule) :
  (forall c, Forall wf_atask (after c) /\ schedulable (after c)) ->
  (forall c, legal_edf (map etask_of (after c)) (s c) /\ valid_schedule (length (after c)) (s c) (sc c) /\ edf_policy (map etask_of (after c)) (s c) (sc c)) ->
  forall ps at_ start fin, released after s ps at_ start -> (forall k, start k + zsum (map (fun p => a_deadline (snd p)) ps) = fin k) -> finished s sc ps at_ start fin.
Proof.
  intros G R. induction ps as [|[c p] ps IH]; intros at_ start fin HR HF; destruct at_ as [|i at_]; cbn [released finished] in *; try contradiction.
  - intros k. specialize (HF k). cbn in HF. lia.
  - destruct HR as [H1 [H2 H3]]. split.
    + intros k. destruct (G c) as [W S]. destruct (R c) as [L [V P]]. assert (WE : Forall wf_etask (map etask_of (after c))) by (apply Forall_map; eapply Forall_impl; [|exact W]; intros t [? [? ?]]; unfold wf_etask, etask_of; cbn; lia).
      assert (LT : (i < length (after c))%nat) by (apply nth_error_Some; congruence). assert (V' : valid_schedule (length (map etask_of (after c))) (s c) (sc c)) by (rewrite map_length; exact V).
      destruct (edf_sound _ _ _ WE L V' P S (i, k)) as [q [Q1 Q2]]; [cbn [fst]; rewrite map_length; exact LT|]. exists q. split; [|exact Q2]. unfold due in Q1. cbn [fst snd] in Q1. rewrite (nth_etask _ _ _ _ H1), H2 in Q1. unfold etask_of in Q1. cbn [e_deadline] in Q1. exact Q1.
    + apply IH; [exact H3|]. intros k. specialize (HF k). cbn [map zsum snd] in HF. lia.
Qed.

Lemma correct_wf th s s' : steps th s s' -> good s -> forall c, Forall wf_atask (lookup c (snd s')) /\ schedulable (lookup c (snd s')).
Proof. intros H G. exact (proj2 (steps_good _ _ _ H G)). Qed.
