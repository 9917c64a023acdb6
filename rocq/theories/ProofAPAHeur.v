(** The heuristics for affinity-aware partitioning. *)
From Coq Require Import ZArith QArith List Bool Lia Arith Permutation Setoid Morphisms.
From Verif Require Import Base ModelTasks ModelNative ModelQPA SpecUni SpecQPA ProofUni ProofEDF ProofQPA PropQPA ModelAPA SpecAPA ProofAPA.
Import ListNotations.
Open Scope Z_scope.

Lemma okp_wf l : Forall wf_atask l -> Forall okp (map etask_of l).
Proof. intros W. apply Forall_map. eapply Forall_impl; [|exact W]. intros t [? [? ?]]. unfold okp, etask_of. cbn. lia. Qed.

Lemma sched_chunk l t w : schedulable (l ++ [chunk t w]) = criterion (map etask_of l ++ [ETask w (a_period t) w]).
Proof. unfold schedulable. rewrite map_app. reflexivity. Qed.

Lemma sched_mono l k x : Forall wf_atask k -> schedulable ((l ++ k) ++ x) -> schedulable (l ++ x).
Proof.
  unfold schedulable. intros W H. rewrite !map_app in *. apply criterion_app_l with (b := map etask_of k); [apply okp_wf; exact W|]. eapply criterion_perm; [|exact H]. rewrite <- !app_assoc. apply Permutation_app_head, Permutation_app_comm.
Qed.

Lemma stuck_ext th sp t m m' : ext m m' -> (forall c, Forall wf_atask (lookup c m')) -> stuck th sp t (fun c => lookup c m) -> stuck th sp t (fun c => lookup c m').
Proof.
  intros E W S c Hc. specialize (S c Hc). destruct S as [S1 S2]. destruct (E c) as [k EK]. specialize (W c). rewrite EK in W. apply Forall_app in W. destruct W as [_ W]. split.
  - intros H. apply S1. rewrite EK in H. eapply sched_mono; eassumption.
  - intros HS H2 w HW H0 H. apply (S2 HS H2 w HW H0). rewrite EK in H. eapply sched_mono; eassumption.
Qed.

Lemma whole_chunk l t : wf_atask t -> criterion (map etask_of l ++ [ETask (a_cost t) (a_period t) (a_cost t)]) -> schedulable (l ++ [t]).
Proof. intros [W1 [W2 W3]] H. unfold schedulable. rewrite map_app. cbn [map]. unfold etask_of at 2. eapply criterion_relax; [| | |exact H]; lia. Qed.

(** * Worst fit *)

Definition okm (m : mapping) : Prop := forall c, Forall wf_atask (lookup c m) /\ schedulable (lookup c m).

Lemma wf_candidates_tot m t cores : okm m -> wf_atask t ->
  tot (fun f => wf_candidates f m t cores) (fun cs => forall c, (exists d, In (d, c) cs) <-> In c cores /\ schedulable (lookup c m ++ [t])).
Proof.
  intros G W. induction cores as [|c0 r IH]; cbn [wf_candidates].
  - apply tot_ret. intros c. split; [intros [d []]|intros [[] _]].
  - eapply tot_bind; [apply fits_tot; apply Forall_app; split; [apply G|constructor; [exact W|constructor]]|]. intros b HB. eapply tot_bind; [exact IH|]. intros cs HC. apply tot_ret. intros c. destruct b.
    + split; [intros [d [H|H]]|].
      * inversion H; subst. split; [left; reflexivity|]. apply HB. reflexivity.
      * destruct (proj1 (HC c)) as [A B]; [exists d; exact H|]. split; [right; exact A|exact B].
      * intros [[->|H] S]; [exists (part_density (lookup c m ++ [t])); left; reflexivity|]. destruct (proj2 (HC c)) as [d Hd]; [split; assumption|]. exists d. right. exact Hd.
    + specialize (HC c). cbv beta in HC. rewrite HC. split; [intros [A B]; split; [right; exact A|exact B]|]. intros [[->|H] S]; [apply HB in S; discriminate|split; assumption].
Qed.

Lemma min_pair_in x l : In (min_pair x l) (x :: l).
Proof.
  unfold min_pair. revert x. induction l as [|y l IH]; intros x; cbn [fold_left]; [left; reflexivity|]. destruct (IH (if pair_le x y then x else y)) as [H|H]; [|right; right; exact H]. rewrite <- H. destruct (pair_le x y); [left|right; left]; reflexivity.
Qed.

Lemma try_assign_tot m t : okm m -> wf_atask t ->
  tot (fun f => try_assign_worst_fit f m t) (fun o => match o with
    | Some m' => exists c, In c (a_aff t) /\ schedulable (lookup c m ++ [t]) /\ m' = append c t m
    | None => forall c, In c (a_aff t) -> ~ schedulable (lookup c m ++ [t]) end).
Proof.
  intros G W. unfold try_assign_worst_fit. eapply tot_bind; [apply wf_candidates_tot; assumption|]. intros cs HC. destruct cs as [|x r].
  - apply tot_ret. intros c H S. destruct (proj2 (HC c) (conj H S)) as [d []].
  - apply tot_ret. pose proof (min_pair_in x r) as I. destruct (min_pair x r) as [d c]. cbn [snd] in *. exists c. destruct (proj1 (HC c) (ex_intro _ d I)) as [A B]. auto.
Qed.

Definition split_ok (m : mapping) (t : atask) (th : Z) (o : option (mapping * atask)) : Prop :=
  match o with
  | Some (m', t2) => exists c w, In c (a_aff t) /\ 0 < w < a_cost t /\ th <= w /\ th <= a_cost t - w /\
      schedulable (lookup c m ++ [chunk t w]) /\ m' = append c (chunk t w) m /\ t2 = leftover t w
  | None => forall c w, In c (a_aff t) -> th <= w <= a_cost t -> 0 < w -> ~ schedulable (lookup c m ++ [chunk t w])
  end.

Lemma split_on_ok m t th c wcet : okm m -> wf_atask t -> 0 <= th -> 2 * th <= a_cost t -> ~ schedulable (lookup c m ++ [t]) -> chunk_spec (lookup c m) t wcet ->
  exists o, split_on m t th c wcet = Ok o /\ match o with
    | Some (m', t2) => exists w, 0 < w < a_cost t /\ th <= w /\ th <= a_cost t - w /\ schedulable (lookup c m ++ [chunk t w]) /\ m' = append c (chunk t w) m /\ t2 = leftover t w
    | None => wcet = 0 \/ wcet < th end.
Proof.
  intros G W T0 T2 NF [C1 [C2 C3]]. unfold split_on. destruct (Z.eqb_spec wcet 0) as [E0|N0]; cbn [negb andb]; [exists None; split; [reflexivity|left; exact E0]|].
  destruct (Z.leb_spec th wcet); [|exists None; split; [reflexivity|right; exact H]]. destruct (Z.leb_spec th (Z.min wcet (a_cost t - th))); [|lia]. cbn [split_task_C_equal_D].
  eexists. split; [reflexivity|]. cbn [split_task_C_equal_D]. set (w := Z.min wcet (a_cost t - th)). exists w.
  assert (NW : wcet <> a_cost t). { intros E. apply NF. apply whole_chunk; [exact W|]. rewrite <- E. apply C2. lia. }
  destruct W as [W1 [W2 W3]]. assert (WP : 0 < w < a_cost t) by (unfold w; lia). split; [exact WP|]. split; [unfold w; lia|]. split; [unfold w; lia|]. split; [|split; reflexivity].
  rewrite sched_chunk. apply criterion_chunk with (w := wcet); [apply okp_wf, G|lia|unfold w in *; lia|apply C2; lia].
Qed.

Lemma no_chunk l t wcet w : chunk_spec l t wcet -> wcet < w <= a_cost t -> ~ schedulable (l ++ [chunk t w]).
Proof. intros [_ [_ H]] HW. rewrite sched_chunk. apply H. exact HW. Qed.

Lemma split_cores_tot m t th cores : okm m -> wf_atask t -> 0 <= th -> 2 * th <= a_cost t -> (forall c, In c cores -> ~ schedulable (lookup c m ++ [t])) ->
  tot (fun f => split_cores f m t th cores) (fun o => match o with
    | Some (m', t2) => exists c w, In c cores /\ 0 < w < a_cost t /\ th <= w /\ th <= a_cost t - w /\ schedulable (lookup c m ++ [chunk t w]) /\ m' = append c (chunk t w) m /\ t2 = leftover t w
    | None => forall c w, In c cores -> th <= w <= a_cost t -> 0 < w -> ~ schedulable (lookup c m ++ [chunk t w]) end).
Proof.
  intros G W T0 T2. induction cores as [|c0 r IH]; intros NF; cbn [split_cores].
  - apply tot_ret. intros c w [].
  - eapply tot_bind; [apply chunk_tot; [apply G|apply G|exact W]|]. intros wcet HC. destruct (split_on_ok m t th c0 wcet G W T0 T2 (NF c0 (or_introl eq_refl)) HC) as [o [EO HO]]. rewrite EO. cbn [bind]. destruct o as [[m' t2]|].
    + apply tot_ret. destruct HO as [w HW]. exists c0, w. split; [left; reflexivity|exact HW].
    + eapply tot_weaken; [apply IH; intros c Hc; apply NF; right; exact Hc|]. intros [[m' t2]|] H.
      * destruct H as [c [w [H1 H2]]]. exists c, w. split; [right; exact H1|exact H2].
      * intros c w [<-|Hc] HW H0; [eapply no_chunk; [exact HC|lia]|apply H; assumption].
Qed.

Lemma try_split_wf_tot m t th : okm m -> wf_atask t -> 0 <= th -> 2 * th <= a_cost t -> (forall c, In c (a_aff t) -> ~ schedulable (lookup c m ++ [t])) ->
  tot (fun f => try_split_worst_fit f m t th) (split_ok m t th).
Proof.
  intros G W T0 T2 NF. unfold try_split_worst_fit. pose proof (sort_cores_perm m (a_aff t)) as P. eapply tot_weaken; [apply split_cores_tot; try assumption; intros c Hc; apply NF; eapply Permutation_in; eassumption|].
  intros [[m' t2]|] H; cbn [split_ok].
  - destruct H as [c [w [H1 H2]]]. exists c, w. split; [eapply Permutation_in; eassumption|exact H2].
  - intros c w Hc. apply H. eapply Permutation_in; [symmetry; exact P|exact Hc].
Qed.

Lemma max_chunk_tot m t all cores done best : okm m -> wf_atask t -> all = done ++ cores ->
  (match best with (w, None) => w = 0 /\ done = [] | (w, Some c) => In c done /\ chunk_spec (lookup c m) t w end) ->
  (forall c, In c done -> exists w, chunk_spec (lookup c m) t w /\ w <= fst best) ->
  tot (fun f => max_chunk f m t best cores) (fun b =>
    (match b with (w, None) => w = 0 /\ all = [] | (w, Some c) => In c all /\ chunk_spec (lookup c m) t w end) /\
    (forall c, In c all -> exists w, chunk_spec (lookup c m) t w /\ w <= fst b)).
Proof.
  intros G W. revert done best. induction cores as [|c0 r IH]; intros done best E HB HD; cbn [max_chunk].
  - rewrite app_nil_r in E. subst all. apply tot_ret. split; assumption.
  - eapply tot_bind; [apply chunk_tot; [apply G|apply G|exact W]|]. intros w HC. set (better := (fst best <? w) || _). apply (IH (done ++ [c0])); [rewrite <- app_assoc; exact E| |].
    + destruct better eqn:EB; [split; [apply in_app_iff; right; left; reflexivity|exact HC]|]. destruct best as [b [c|]]; [destruct HB as [B1 B2]; split; [apply in_app_iff; left; exact B1|exact B2]|]. exfalso. destruct HB as [-> ->]. unfold better in EB. cbn [fst snd] in EB. destruct HC as [HC _]. destruct (Z.ltb_spec 0 w), (Z.eqb_spec 0 w); cbn in EB; try discriminate; lia.
    + intros c Hc. apply in_app_iff in Hc. assert (BW : fst best <= fst (if better then (w, Some c0) else best) /\ w <= fst (if better then (w, Some c0) else best)).
      { destruct better eqn:EB; cbn [fst]; unfold better in EB; [apply orb_true_iff in EB; rewrite andb_true_iff, Z.ltb_lt, Z.eqb_eq in EB; lia|apply orb_false_iff in EB; destruct EB as [EB _]; apply Z.ltb_ge in EB; lia]. }
      destruct Hc as [Hc|[<-|[]]]; [destruct (HD c Hc) as [w1 [A B]]; exists w1; split; [exact A|lia]|exists w; split; [exact HC|lia]].
Qed.

Lemma try_split_mc_tot m t th : okm m -> wf_atask t -> 0 <= th -> 2 * th <= a_cost t -> (forall c, In c (a_aff t) -> ~ schedulable (lookup c m ++ [t])) ->
  tot (fun f => try_split_max_chunk f m t th) (split_ok m t th).
Proof.
  intros G W T0 T2 NF. unfold try_split_max_chunk. eapply tot_bind; [apply (max_chunk_tot m t (a_aff t) (a_aff t) [] (0, None) G W); [reflexivity|split; reflexivity|intros c []]|].
  intros [wcet [core|]] [HB HM]; cbn [fst] in HM.
  - destruct HB as [I HC]. destruct (split_on_ok m t th core wcet G W T0 T2 (NF core I) HC) as [o [EO HO]]. eapply tot_ext; [intros f; symmetry; exact EO|]. apply tot_ret. destruct o as [[m' t2]|]; cbn [split_ok].
    + destruct HO as [w HW]. exists core, w. split; [exact I|exact HW].
    + intros c w Hc HW H0. destruct (HM c Hc) as [w1 [A B]]. eapply no_chunk; [exact A|lia].
  - destruct HB as [_ E]. apply tot_ret. cbn [split_ok]. rewrite E. intros c w [].
Qed.

Lemma good_okm s : good s -> okm (snd s).
Proof. intros [_ H]. exact H. Qed.

Definition round_post (ws : bool) (th : Z) (un : list atask) (m : mapping) (rest : list atask) (x : bool * list atask * mapping) : Prop :=
  let '(again, un', m') := x in
  (forall th', (ws = true -> th' = th) -> steps th' (un, m) (un', m')) /\
  (again = true -> sum_cost un' < sum_cost un) /\
  (again = false -> exists l', Permutation un' (l' ++ rest) /\ Forall (fun t => stuck th ws t (fun c => lookup c m')) l').

Lemma wfd_round_tot ws mc th : 0 <= th -> forall l un m rest, Permutation un (l ++ rest) -> good (un, m) ->
  tot (fun f => wfd_round f ws mc th l un m) (round_post ws th un m rest).
Proof.
  intros T0. induction l as [|t r IH]; intros un m rest P G; cbn [wfd_round].
  - apply tot_ret. split; [|split; [discriminate|]]. { intros th' _. apply steps_refl. reflexivity. } intros _. exists []. split; [exact P|constructor].
  - assert (It : In t un) by (eapply Permutation_in; [symmetry; exact P|left; reflexivity]).
    assert (Wt : wf_atask t) by (destruct G as [G _]; rewrite Forall_forall in G; apply G; exact It).
    pose proof (remove_task_perm t un It) as PR. assert (PR2 : Permutation (remove_task t un) (r ++ rest)) by (apply Permutation_cons_inv with (a := t); rewrite <- PR; exact P).
    eapply tot_bind; [apply try_assign_tot; [exact (good_okm _ G)|exact Wt]|]. intros [m'|] HA.
    + destruct HA as [c [C1 [C2 ->]]]. assert (ST : forall th', step th' (un, m) (remove_task t un, append c t m)) by (intros th'; eapply step_place with (r := remove_task t un); [exact PR|exact C1|exact C2|reflexivity]).
      pose proof (step_good 0 _ _ (ST 0) G) as G'. eapply tot_weaken; [apply (IH _ _ rest PR2 G')|]. intros [[again un'] m'] [H1 [H2 H3]]. split; [|split; [|exact H3]].
      * intros th' HT. eapply steps_cons; [apply ST|apply H1; exact HT].
      * intros E. specialize (H2 E). rewrite (sum_cost_perm _ _ PR). unfold sum_cost in *. cbn [map zsum]. destruct Wt. lia.
    + assert (SKIP : forall sk, stuck th ws t (fun c => lookup c m) = sk -> sk -> tot (fun f => wfd_round f ws mc th r un m) (round_post ws th un m rest)).
      { intros sk <- SK. eapply tot_weaken; [apply (IH un m (t :: rest)); [rewrite P; cbn [app]; apply Permutation_middle|exact G]|]. intros [[again un'] m'] [H1 [H2 H3]]. split; [exact H1|]. split; [exact H2|]. intros E. destruct (H3 E) as [l' [A B]]. exists (t :: l'). split; [rewrite A; cbn [app]; symmetry; apply Permutation_middle|].
        assert (ST : steps th (un, m) (un', m')) by (apply H1; reflexivity). constructor; [|exact B]. apply stuck_ext with (m := m); [apply (steps_ext _ _ _ ST)|intros c; apply (steps_good _ _ _ ST G)|exact SK]. }
      destruct (ws && (2 * th <=? a_cost t)) eqn:EW.
      * apply andb_true_iff in EW. destruct EW as [EW1 EW2]. apply Z.leb_le in EW2.
        assert (TS : tot (fun f => if mc then try_split_max_chunk f m t th else try_split_worst_fit f m t th) (split_ok m t th)).
        { destruct mc; [apply try_split_mc_tot|apply try_split_wf_tot]; try assumption; exact (good_okm _ G). }
        eapply tot_bind; [exact TS|]. intros [[m' t2]|] HS; cbn [split_ok] in HS.
        -- destruct HS as [c [w [S1 [S2 [S3 [S4 [S5 [-> ->]]]]]]]]. apply tot_ret. split; [|split; [|discriminate]].
           ++ intros th' HT. rewrite (HT EW1). eapply steps_cons; [eapply step_split with (r := remove_task t un) (w := w); try eassumption; reflexivity|apply steps_refl; reflexivity].
           ++ intros _. rewrite (sum_cost_perm _ _ PR). unfold sum_cost. cbn [map zsum]. unfold leftover at 1. cbn [a_cost]. lia.
        -- eapply (SKIP _ eq_refl). intros c Hc. split; [apply HA; exact Hc|]. intros _ _ w HW H0. apply HS; assumption.
      * eapply (SKIP _ eq_refl). intros c Hc. split; [apply HA; exact Hc|]. intros Ews H2. rewrite Ews in EW. cbn [andb] in EW. apply Z.leb_gt in EW. lia.
Qed.

(** what the heuristics guarantee *)
Definition post (ws : bool) (th : Z) (un : list atask) (m : mapping) (x : list atask * mapping) : Prop :=
  forall th', (ws = true -> th' = th) -> steps th' (un, m) x.
Definition maximal (ws : bool) (th : Z) (x : list atask * mapping) : Prop :=
  Forall (fun t => stuck th ws t (fun c => lookup c (snd x))) (fst x).

Section WithIter.
  Variable iter : nat -> list atask -> list atask.
  Hypothesis iter_perm : forall k l, Permutation (iter k l) l.

  Lemma wfd_loop_tot ws mc th : 0 <= th -> forall rounds un m, (Z.to_nat (sum_cost un) < rounds)%nat -> good (un, m) ->
    tot (fun f => wfd_loop iter f ws mc th rounds un m) (fun x => post ws th un m x /\ maximal ws th x).
  Proof.
    intros T0. induction rounds as [|k IH]; intros un m HR G; [lia|]. destruct un as [|t un].
    - cbn [wfd_loop]. apply tot_ret. split; [intros th' _; apply steps_refl; reflexivity|constructor].
    - remember (t :: un) as u eqn:Eu. assert (E : forall f, wfd_loop iter f ws mc th (S k) u m = bind (wfd_round f ws mc th (sorted_by_decreasing_difficulty (fun t => length (a_aff t)) (iter k u)) u m) (fun r => let '(try_again, un', m') := r in if try_again then wfd_loop iter f ws mc th k un' m' else Ok (un', m'))) by (subst u; reflexivity).
      eapply tot_ext; [intros f; symmetry; apply E|]. clear E. eapply tot_bind; [apply (wfd_round_tot ws mc th T0 _ u m []); [rewrite app_nil_r, sort_difficulty_perm, iter_perm; reflexivity|exact G]|].
      intros [[again un'] m'] [H1 [H2 H3]]. assert (ST : steps th (u, m) (un', m')) by (apply H1; reflexivity). pose proof (steps_good _ _ _ ST G) as G'. destruct again.
      + eapply tot_weaken; [apply IH; [|exact G']|].
        * specialize (H2 eq_refl). pose proof (sum_cost_nonneg un' (proj1 G')). lia.
        * intros x [X1 X2]. split; [|exact X2]. intros th' HT. eapply steps_trans; [apply H1; exact HT|apply X1; exact HT].
      + apply tot_ret. split; [exact H1|]. destruct (H3 eq_refl) as [l' [A B]]. rewrite app_nil_r in A. unfold maximal. cbn [fst snd]. eapply Permutation_Forall; [symmetry; exact A|exact B].
  Qed.

  Lemma wfd_tot ws mc th rounds tasks pre : 0 <= th -> (Z.to_nat (sum_cost tasks) < rounds)%nat -> good (tasks, pre) ->
    tot (fun f => wfd iter f rounds tasks ws pre th mc) (fun x => post ws th tasks pre x /\ maximal ws th x).
  Proof. intros T0 HR G. exact (wfd_loop_tot ws mc th T0 rounds tasks pre HR G). Qed.

  Lemma double_wfd_tot ws th rounds tasks pre : 0 <= th -> (Z.to_nat (sum_cost tasks) < rounds)%nat -> good (tasks, pre) ->
    tot (fun f => double_wfd_split iter f rounds tasks ws pre th) (fun x => post ws th tasks pre x /\ maximal ws th x).
  Proof.
    intros T0 HR G. unfold double_wfd_split. eapply tot_bind; [apply wfd_tot; assumption|]. intros r1 H1. destruct ws; cbn [negb]; [|apply tot_ret; exact H1].
    eapply tot_bind; [apply wfd_tot; assumption|]. intros r2 H2. destruct r1 as [un1 m1], r2 as [un2 m2]. destruct (Nat.ltb (length un1) (length un2)); [apply tot_ret; exact H1|]. destruct (Nat.eqb (length un1) (length un2)); [|apply tot_ret; exact H2]. destruct (Nat.ltb _ _); apply tot_ret; assumption.
  Qed.

  (** * First fit *)

  Definition inv_aff (a : affinities) (un : list atask) (done : list nat) : Prop :=
    forall t, In t un -> exists l, get_aff (a_id t) a = Ok l /\ forall c, In c l <-> In c (a_aff t) /\ ~ In c done.

  Lemma get_aff_init tasks : NoDup (map a_id tasks) -> inv_aff (init_aff tasks) tasks [].
  Proof.
    intros ND t Ht. exists (a_aff t). split; [|intros c; split; [intros H; split; [exact H|intros []]|intros [H _]; exact H]].
    unfold init_aff. assert (G : forall (a : affinities) i l, NoDup (map fst a) -> In (i, l) a -> get_aff i a = Ok l).
    { induction a as [|[j k] a IHa]; [intros i l N []|]. intros i l N [H|H]; cbn [get_aff]; inversion N; subst; [inversion H; subst; rewrite Z.eqb_refl; reflexivity|]. destruct (Z.eqb_spec j i) as [->|_]; [exfalso; apply H2; apply in_map_iff; exists (i, l); split; [reflexivity|exact H]|apply IHa; assumption]. }
    apply G; [rewrite map_rev, map_map; cbn [fst]; apply NoDup_rev; exact ND|]. apply -> in_rev. apply in_map_iff. exists t. split; [reflexivity|exact Ht].
  Qed.

  Lemma get_aff_discard i j c a l : get_aff i a = Ok l -> get_aff i (discard j c a) = Ok (if i =? j then filter (fun x => negb (Nat.eqb x c)) l else l).
  Proof.
    induction a as [|[k x] a IH]; cbn [get_aff discard]; [discriminate|]. destruct (Z.eqb_spec k j) as [->|Nj]; cbn [get_aff].
    - destruct (Z.eqb_spec j i) as [->|Ni]; [intros H; inversion H; subst; rewrite Z.eqb_refl; reflexivity|]. intros ->. destruct (Z.eqb_spec i j); [congruence|reflexivity].
    - destruct (Z.eqb_spec k i) as [->|Ni]; [|exact IH]. intros H. inversion H; subst. destruct (Z.eqb_spec i j); [congruence|reflexivity].
  Qed.

  Lemma remove_core_ok un a c : (forall t, In t un -> exists l, get_aff (a_id t) a = Ok l) ->
    exists a', remove_core un a c = Ok a' /\ forall i l, get_aff i a = Ok l -> exists l', get_aff i a' = Ok l' /\
      (forall x, In x l' -> In x l) /\ (forall x, In x l -> x <> c -> In x l') /\ (In i (map a_id un) -> ~ In c l').
  Proof.
    revert a. induction un as [|t un IH]; intros a H; cbn [remove_core].
    - exists a. split; [reflexivity|]. intros i l E. exists l. split; [exact E|]. split; [auto|]. split; [auto|]. intros [].
    - destruct (H t (or_introl eq_refl)) as [l0 E0]. rewrite E0. cbn [bind]. destruct (IH (discard (a_id t) c a)) as [a' [EA HA]].
      + intros u Hu. destruct (H u (or_intror Hu)) as [l E]. eexists. apply get_aff_discard. exact E.
      + exists a'. split; [exact EA|]. intros i l E. destruct (HA i _ (get_aff_discard _ (a_id t) c _ _ E)) as [l' [E' [I1 [I2 I3]]]]. exists l'. split; [exact E'|]. split; [|split].
        * intros x Hx. apply I1 in Hx. destruct (i =? a_id t); [apply filter_In in Hx; tauto|exact Hx].
        * intros x Hx Nx. apply I2; [|exact Nx]. destruct (i =? a_id t); [apply filter_In; split; [exact Hx|destruct (Nat.eqb_spec x c); [congruence|reflexivity]]|exact Hx].
        * cbn [map]. intros [Hi|Hi]; [|apply I3; exact Hi]. intros Hc. apply I1 in Hc. rewrite Hi, Z.eqb_refl in Hc. apply filter_In in Hc. destruct Hc as [_ Hc]. rewrite Nat.eqb_refl in Hc. discriminate.
  Qed.

  Lemma remove_core_inv un a c done : inv_aff a un done -> exists a', remove_core un a c = Ok a' /\ inv_aff a' un (c :: done).
  Proof.
    intros H. destruct (remove_core_ok un a c) as [a' [E HA]]; [intros t Ht; destruct (H t Ht) as [l [A _]]; exists l; exact A|]. exists a'. split; [exact E|]. intros t Ht. destruct (H t Ht) as [l [A B]]. destruct (HA _ _ A) as [l' [E' [I1 [I2 I3]]]]. exists l'. split; [exact E'|]. intros x. specialize (B x). split.
    - intros Hx. pose proof (I1 x Hx) as Hl. apply B in Hl. destruct Hl as [L1 L2]. split; [exact L1|]. intros [<-|Hd]; [apply (I3 (in_map a_id _ _ Ht)); exact Hx|exact (L2 Hd)].
    - intros [Hx Nx]. apply I2; [apply B; split; [exact Hx|intros K; apply Nx; right; exact K]|intros ->; apply Nx; left; reflexivity].
  Qed.

  Lemma eligible_ok core a un done : inv_aff a un done -> exists el others, eligible core a un = Ok el /\ Permutation un (el ++ others) /\
    Forall (fun t => In core (a_aff t)) el /\ Forall (fun t => In core (a_aff t) -> In core done) others.
  Proof.
    induction un as [|t un IH]; intros H; cbn [eligible].
    - exists [], []. repeat split; constructor.
    - destruct (H t (or_introl eq_refl)) as [l [A B]]. rewrite A. cbn [bind]. destruct IH as [el [ot [E [P [F1 F2]]]]]; [intros u Hu; apply H; right; exact Hu|]. rewrite E. cbn [bind]. specialize (B core).
      destruct (existsb (Nat.eqb core) l) eqn:EX.
      + apply existsb_exists in EX. destruct EX as [x [X1 X2]]. apply Nat.eqb_eq in X2. subst x. exists (t :: el), ot. split; [reflexivity|]. split; [cbn [app]; constructor; exact P|]. split; [constructor; [tauto|exact F1]|exact F2].
      + exists el, (t :: ot). split; [reflexivity|]. split; [rewrite P; apply Permutation_middle|]. split; [exact F1|]. constructor; [|exact F2]. intros Hc. destruct (in_dec Nat.eq_dec core done) as [D|D]; [exact D|]. exfalso. assert (In core l) by (apply B; split; assumption). assert (T : existsb (Nat.eqb core) l = true) by (apply existsb_exists; exists core; split; [assumption|apply Nat.eqb_refl]). rewrite T in EX. discriminate.
  Qed.

  (** ids and affinities of the unassigned tasks come from the given tasks *)
  Definition from (un un' : list atask) : Prop := exists (l : list (atask * atask)) k,
    Permutation (map fst l ++ k) un /\ Permutation (map snd l) un' /\ Forall (fun p => a_id (fst p) = a_id (snd p) /\ a_aff (fst p) = a_aff (snd p)) l.

  Lemma from_in un un' t : from un un' -> In t un' -> exists u, In u un /\ a_id u = a_id t /\ a_aff u = a_aff t.
  Proof.
    intros [l [k [P1 [P2 F]]]] H. assert (I : In t (map snd l)) by (eapply Permutation_in; [symmetry; exact P2|exact H]). apply in_map_iff in I. destruct I as [[u v] [E I]]. cbn [snd] in E. subst v. rewrite Forall_forall in F. destruct (F _ I) as [F1 F2]. cbn [fst snd] in *. exists u. split; [|split; assumption]. eapply Permutation_in; [exact P1|]. apply in_app_iff. left. apply in_map_iff. exists (u, t). split; [reflexivity|exact I].
  Qed.

  Lemma from_refl un un' : Permutation un un' -> from un un'.
  Proof.
    intros P. exists (map (fun t => (t, t)) un), []. rewrite !map_map. cbn [fst snd]. rewrite map_id, app_nil_r. split; [reflexivity|]. split; [exact P|]. apply Forall_map, Forall_forall. intros t _. split; reflexivity.
  Qed.

  Lemma step_from th s s' : step th s s' -> forall un0, from un0 (fst s) -> from un0 (fst s').
  Proof.
    intros H un0 [l [k [P1 [P2 F]]]]. inversion H; subst; cbn [fst] in *.
    - assert (I : In t (map snd l)) by (eapply Permutation_in; [symmetry; exact P2|eapply Permutation_in; [symmetry; exact H0|left; reflexivity]]). apply in_map_iff in I. destruct I as [[u v] [E I]]. cbn [snd] in E. subst v. apply in_split in I. destruct I as [l1 [l2 ->]].
      exists (l1 ++ l2), (u :: k). rewrite ?map_app in *. cbn [map fst snd] in *. split; [rewrite <- P1, <- !app_assoc; apply Permutation_app_head; cbn [app]; symmetry; apply Permutation_middle|]. split.
      + rewrite H3. apply Permutation_cons_inv with (a := t). rewrite <- H0, <- P2. apply Permutation_middle.
      + apply Forall_app in F. destruct F as [F1 F2]. inversion F2; subst. apply Forall_app. split; assumption.
    - assert (I : In t (map snd l)) by (eapply Permutation_in; [symmetry; exact P2|eapply Permutation_in; [symmetry; exact H0|left; reflexivity]]). apply in_map_iff in I. destruct I as [[u v] [E I]]. cbn [snd] in E. subst v. apply in_split in I. destruct I as [l1 [l2 ->]].
      exists (l1 ++ (u, leftover t w) :: l2), k. rewrite ?map_app in *. cbn [map fst snd] in *. split; [exact P1|]. split.
      + rewrite H6. rewrite <- Permutation_middle. constructor. apply Permutation_cons_inv with (a := t). rewrite <- H0, <- P2. apply Permutation_middle.
      + apply Forall_app in F. destruct F as [F1 F2]. inversion F2; subst. apply Forall_app. split; [exact F1|]. constructor; [|assumption]. cbn [fst snd] in *. exact H9.
  Qed.

  Lemma steps_from th s s' : steps th s s' -> forall un0, from un0 (fst s) -> from un0 (fst s').
  Proof.
    induction 1 as [un un' m P|s s' s1 H1 H2 IH]; intros un0 HF; [|apply IH; eapply step_from; eassumption]. destruct HF as [l [k [P1 [P2 F]]]]. cbn [fst] in *. exists l, k. split; [exact P1|]. split; [rewrite P2; exact P|exact F].
  Qed.

  Lemma nodup_app_l {A} (a b : list A) : NoDup (a ++ b) -> NoDup a.
  Proof. induction a as [|x a IH]; intros N; [constructor|]. inversion N; subst. constructor; [intros K; apply H1, in_app_iff; left; exact K|apply IH; assumption]. Qed.

  Lemma from_nodup un un' : from un un' -> NoDup (map a_id un) -> NoDup (map a_id un').
  Proof.
    intros [l [k [P1 [P2 F]]]] N. eapply Permutation_NoDup; [apply Permutation_map; exact P2|]. rewrite map_map. assert (E : map (fun x => a_id (snd x)) l = map a_id (map fst l)) by (rewrite map_map; apply map_ext_in; intros x Hx; rewrite Forall_forall in F; symmetry; apply F; exact Hx). rewrite E.
    apply (Permutation_NoDup (Permutation_map a_id (Permutation_sym P1))) in N. rewrite map_app in N. apply nodup_app_l in N. exact N.
  Qed.

  Lemma inv_aff_from a un un' done : from un un' -> inv_aff a un done -> inv_aff a un' done.
  Proof. intros H I t Ht. destruct (from_in un un' t H Ht) as [u [U1 [U2 U3]]]. destruct (I u U1) as [l [A B]]. rewrite <- U2, <- U3. exists l. split; assumption. Qed.

  Lemma ffd_core_tot ws th core : 0 <= th -> forall l un m rest, Permutation un (l ++ rest) -> good (un, m) -> Forall (fun t => In core (a_aff t)) l ->
    tot (fun f => ffd_core f ws th core l un m) (fun x => post ws th un m x /\
      (ws = false -> exists l', Permutation (fst x) (l' ++ rest) /\ Forall (fun t => ~ schedulable (lookup core (snd x) ++ [t])) l')).
  Proof.
    intros T0. induction l as [|t r IH]; intros un m rest P G F; cbn [ffd_core].
    - apply tot_ret. split; [intros th' _; apply steps_refl; reflexivity|]. intros _. exists []. split; [exact P|constructor].
    - assert (It : In t un) by (eapply Permutation_in; [symmetry; exact P|left; reflexivity]).
      assert (Wt : wf_atask t) by (destruct G as [G _]; rewrite Forall_forall in G; apply G; exact It).
      pose proof (remove_task_perm t un It) as PR. assert (PR2 : Permutation (remove_task t un) (r ++ rest)) by (apply Permutation_cons_inv with (a := t); rewrite <- PR; exact P).
      inversion F as [|? ? F1 F2]; subst. pose proof (good_okm _ G) as GM. cbn [snd] in GM.
      eapply tot_bind; [apply fits_tot; apply Forall_app; split; [apply GM|constructor; [exact Wt|constructor]]|]. intros b HB. destruct b.
      + assert (ST : forall th', step th' (un, m) (remove_task t un, append core t m)) by (intros th'; eapply step_place with (r := remove_task t un); [exact PR|exact F1|apply HB; reflexivity|reflexivity]).
        pose proof (step_good 0 _ _ (ST 0) G) as G'. eapply tot_weaken; [apply (IH _ _ rest PR2 G' F2)|]. intros x [H1 H2]. split; [|exact H2]. intros th' HT. eapply steps_cons; [apply ST|apply H1; exact HT].
      + assert (NF : ~ schedulable (lookup core m ++ [t])) by (intros S; apply HB in S; discriminate). destruct (ws && (th * 2 <=? a_cost t)) eqn:EW.
        * apply andb_true_iff in EW. destruct EW as [EW1 EW2]. apply Z.leb_le in EW2. eapply tot_bind; [apply chunk_tot; [apply GM|apply GM|exact Wt]|]. intros wcet HC. destruct (split_on_ok m t th core wcet GM Wt T0 ltac:(lia) NF HC) as [o [EO HO]]. rewrite EO. cbn [bind]. destruct o as [[m' t2]|].
          -- apply tot_ret. split; [|intros E; rewrite E in EW1; discriminate]. destruct HO as [w [S2 [S3 [S4 [S5 [-> ->]]]]]]. intros th' HT. rewrite (HT EW1). eapply steps_cons; [eapply step_split with (r := remove_task t un) (w := w); try eassumption; reflexivity|apply steps_refl; reflexivity].
          -- apply tot_ret. split; [intros th' _; apply steps_refl; reflexivity|intros E; rewrite E in EW1; discriminate].
        * eapply tot_weaken; [apply (IH un m (t :: rest)); [rewrite P; cbn [app]; apply Permutation_middle|exact G|exact F2]|]. intros x [H1 H2]. split; [exact H1|]. intros E. destruct (H2 E) as [l' [A B]]. exists (t :: l'). split; [rewrite A; cbn [app]; symmetry; apply Permutation_middle|].
          assert (ST : steps th (un, m) x) by (apply H1; reflexivity). destruct x as [un' m']. cbn [fst snd] in *. constructor; [|exact B]. destruct (steps_ext _ _ _ ST core) as [k EK]. cbn [snd] in EK. intros S. apply NF. rewrite EK in S. eapply sched_mono; [|exact S]. pose proof (proj1 (proj2 (steps_good _ _ _ ST G) core)) as WW. cbn [snd] in WW. rewrite EK in WW. apply Forall_app in WW. apply WW.
  Qed.

  Lemma ffd_loop_tot ws th : 0 <= th -> forall cores done a un m, good (un, m) -> NoDup (map a_id un) -> inv_aff a un done ->
    (ws = false -> forall t c, In t un -> In c (a_aff t) -> In c done -> ~ schedulable (lookup c m ++ [t])) ->
    tot (fun f => ffd_loop iter f ws th cores a un m) (fun x => post ws th un m x /\
      (ws = false -> forall t c, In t (fst x) -> In c (a_aff t) -> In c (done ++ cores) -> ~ schedulable (lookup c (snd x) ++ [t]))).
  Proof.
    intros T0. induction cores as [|core r IH]; intros done a un m G N IA MX; cbn [ffd_loop].
    - apply tot_ret. split; [intros th' _; apply steps_refl; reflexivity|]. rewrite app_nil_r. exact MX.
    - destruct (eligible_ok core a (iter (length r) un) done) as [el [ot [E [P [F1 F2]]]]]. { intros t Ht. apply IA. eapply Permutation_in; [apply iter_perm|exact Ht]. } rewrite E. cbn [bind].
      assert (P' : Permutation un (sorted_by_decreasing_difficulty (eff_len a) el ++ ot)) by (rewrite sort_difficulty_perm, <- P; symmetry; apply iter_perm).
      eapply tot_bind; [apply (ffd_core_tot ws th core T0 _ un m ot P' G); eapply Permutation_Forall; [symmetry; apply sort_difficulty_perm|exact F1]|].
      intros [un' m'] [H1 H2]. assert (ST : steps th (un, m) (un', m')) by (apply H1; reflexivity). pose proof (steps_good _ _ _ ST G) as G'. pose proof (steps_from _ _ _ ST un (from_refl un un (Permutation_refl _))) as FR. cbn [fst] in FR.
      destruct (remove_core_inv un' a core done (inv_aff_from _ _ _ _ FR IA)) as [a' [EA IA']]. rewrite EA. cbn [bind].
      eapply tot_weaken; [apply (IH (core :: done) a' un' m' G' (from_nodup _ _ FR N) IA')|].
      + intros Ews t c Ht Hc Hd. destruct (H2 Ews) as [l' [A B]]. cbn [fst snd] in A, B.
        (* without splits the unassigned tasks are among the given ones *)
        assert (TU : In t un). { assert (SUB : forall s s', steps (1 + sum_cost un) s s' -> good s -> sum_cost (fst s) <= sum_cost un -> forall x, In x (fst s') -> In x (fst s)).
          { clear. induction 1 as [u u' mm PP|s s' s1 S1 S2 IHs]; intros GG SC x Hx; [cbn [fst] in *; eapply Permutation_in; [symmetry; exact PP|exact Hx]|]. pose proof (step_good _ _ _ S1 GG) as GG'. inversion S1 as [u mm t0 r0 c0 u' Q1 Q2 Q3 Q4|u mm t0 r0 c0 w u' Q1 Q2 Q3 Q4 Q5 Q6 Q7]; subst; cbn [fst] in *.
            - pose proof (Permutation_Forall Q1 (proj1 GG)) as WF. inversion WF as [|? ? WF1 WF2]; subst. rewrite (sum_cost_perm _ _ Q1) in SC. eapply Permutation_in; [symmetry; exact Q1|]. right. eapply Permutation_in; [exact Q4|]. apply IHs; [exact GG'| |exact Hx]. cbn [fst]. rewrite (sum_cost_perm _ _ Q4). unfold sum_cost in *. cbn [map zsum] in SC. destruct WF1. lia.
            - exfalso. pose proof (Permutation_Forall Q1 (proj1 GG)) as WF. inversion WF as [|? ? WF1 WF2]; subst. rewrite (sum_cost_perm _ _ Q1) in SC. pose proof (sum_cost_nonneg r0 WF2). unfold sum_cost in *. cbn [map zsum] in SC. lia. }
          apply (SUB (un, m) (un', m')); [apply H1; intros K; congruence|exact G|cbn [fst]; lia|exact Ht]. }
        assert (OLD : In c done -> ~ schedulable (lookup c m' ++ [t])).
        { intros D S. apply (MX Ews t c TU Hc D). destruct (steps_ext _ _ _ ST c) as [k EK]. cbn [snd] in EK. rewrite EK in S. eapply sched_mono; [|exact S]. pose proof (proj1 (proj2 G' c)) as WW. cbn [snd] in WW. rewrite EK in WW. apply Forall_app in WW. apply WW. }
        destruct Hd as [<-|Hd]; [|apply OLD; exact Hd]. assert (IL : In t (l' ++ ot)) by (eapply Permutation_in; [exact A|exact Ht]). apply in_app_iff in IL. destruct IL as [IL|IL]; [rewrite Forall_forall in B; apply B; exact IL|]. rewrite Forall_forall in F2. apply OLD. apply (F2 t IL Hc).
      + intros x [X1 X2]. split.
        * intros th' HT. eapply steps_trans; [apply H1; exact HT|apply X1; exact HT].
        * intros Ews t c Ht Hc Hd. apply (X2 Ews t c Ht Hc). apply in_app_iff in Hd. cbn [app]. destruct Hd as [Hd|[->|Hd]]; [right; apply in_app_iff; left; exact Hd|left; reflexivity|right; apply in_app_iff; right; exact Hd].
  Qed.

  Lemma ffd_tot ws th tasks cores pre : 0 <= th -> good (tasks, pre) -> NoDup (map a_id tasks) ->
    tot (fun f => ffd iter f tasks cores ws pre th) (fun x => post ws th tasks pre x /\
      (ws = false -> forall t c, In t (fst x) -> In c (a_aff t) -> (match cores with Some l => In c l | None => True end) -> ~ schedulable (lookup c (snd x) ++ [t]))).
  Proof.
    intros T0 G N. unfold ffd. eapply tot_weaken; [apply (ffd_loop_tot ws th T0 _ [] _ _ _ G N (get_aff_init tasks N)); intros _ t c _ _ []|].
    intros x [H1 H2]. split; [exact H1|]. intros E t c Ht Hc HC. apply (H2 E t c Ht Hc). cbn [app]. destruct cores as [l|]; [exact HC|]. apply nodup_In.
    pose proof (steps_from 0 _ _ (H1 0 ltac:(intros K; congruence)) tasks (from_refl _ _ (Permutation_refl _))) as FR. destruct (from_in _ _ t FR Ht) as [u [U1 [U2 U3]]]. apply in_concat. exists (a_aff u). split; [apply in_map; exact U1|rewrite U3; exact Hc].
  Qed.
End WithIter.
