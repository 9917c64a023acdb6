(** Affinity-aware partitioning: every heuristic is a sequence of legal placements. *)
From Coq Require Import ZArith QArith List Bool Lia Lqa Arith Permutation.
From Verif Require Import Base ModelTasks ModelNative ModelQPA SpecUni SpecQPA ProofUni ProofEDF ProofQPA PropQPA ModelAPA SpecAPA.
Import ListNotations.
Open Scope Z_scope.

(** * Loops of the native code: enough fuel *)

Definition tot {A} (m : nat -> res A) (P : A -> Prop) : Prop := exists N r, P r /\ forall fuel, (N <= fuel)%nat -> m fuel = Ok r.

Lemma tot_ret {A} (a : A) (P : A -> Prop) : P a -> tot (fun _ => Ok a) P.
Proof. intros H. exists 0%nat, a. split; [exact H|reflexivity]. Qed.

Lemma tot_bind {A B} (m : nat -> res A) (k : nat -> A -> res B) (P : A -> Prop) (Q : B -> Prop) :
  tot m P -> (forall r, P r -> tot (fun f => k f r) Q) -> tot (fun f => bind (m f) (k f)) Q.
Proof.
  intros [N [r [HP HM]]] HK. destruct (HK r HP) as [N2 [r2 [HQ HM2]]]. exists (Nat.max N N2), r2. split; [exact HQ|]. intros fuel HF. rewrite HM by lia. cbn [bind]. apply HM2. lia.
Qed.

Lemma tot_weaken {A} (m : nat -> res A) (P Q : A -> Prop) : tot m P -> (forall r, P r -> Q r) -> tot m Q.
Proof. intros [N [r [HP HM]]] H. exists N, r. split; [apply H; exact HP|exact HM]. Qed.

Lemma tot_ext {A} (m m' : nat -> res A) P : (forall f, m f = m' f) -> tot m P -> tot m' P.
Proof. intros E [N [r [HP HM]]]. exists N, r. split; [exact HP|]. intros f HF. rewrite <- E. apply HM. exact HF. Qed.

(** * The demand criterion *)

Lemma jobs_due_nonneg e t : 1 <= e_period e -> 0 <= jobs_due e t.
Proof. intros H. unfold jobs_due. destruct (Z.ltb_spec t (e_deadline e)); [lia|]. pose proof (Z.div_pos (t - e_deadline e) (e_period e) ltac:(lia) ltac:(lia)). lia. Qed.

Definition okp (e : etask) : Prop := 1 <= e_period e /\ 0 <= e_cost e.

Lemma criterion_perm a b : Permutation a b -> criterion a -> criterion b.
Proof. intros P H t T. rewrite <- (zsum_perm (map (fun e => e_cost e * jobs_due e t) a)); [apply H; exact T|apply Permutation_map, P]. Qed.

Lemma criterion_app_l a b : Forall okp b -> criterion (a ++ b) -> criterion a.
Proof.
  intros F H t T. specialize (H t T). rewrite map_app, zsum_app in H. assert (0 <= zsum (map (fun e => e_cost e * jobs_due e t) b)); [|lia].
  apply zsum_nonneg. intros x Hx. apply in_map_iff in Hx. destruct Hx as [e [<- He]]. rewrite Forall_forall in F. destruct (F e He). pose proof (jobs_due_nonneg e t H0). nia.
Qed.

(** a later deadline and a smaller cost help *)
Lemma criterion_relax l C T D D' : 1 <= T -> 0 <= C -> D <= D' -> criterion (l ++ [ETask C T D]) -> criterion (l ++ [ETask C T D']).
Proof.
  intros HT HC HD H t Ht. specialize (H t Ht). rewrite map_app, zsum_app in *. cbn [map zsum e_cost] in *. assert (jobs_due (ETask C T D') t <= jobs_due (ETask C T D) t); [|nia].
  unfold jobs_due. cbn [e_deadline e_period]. destruct (Z.ltb_spec t D'), (Z.ltb_spec t D); try lia.
  - pose proof (Z.div_pos (t - D) T ltac:(lia) ltac:(lia)). lia.
  - assert ((t - D') / T <= (t - D) / T) by (apply Z.div_le_mono; lia). lia.
Qed.

(** a smaller chunk fits where a larger one does, although its deadline is earlier *)
Lemma criterion_chunk l T w w' : Forall okp l -> 1 <= T -> 0 < w' <= w -> criterion (l ++ [ETask w T w]) -> criterion (l ++ [ETask w' T w']).
Proof.
  intros F HT HW H t Ht. rewrite map_app, zsum_app. cbn [map zsum]. set (h := fun t => zsum (map (fun e => e_cost e * jobs_due e t) l)).
  assert (MONO : forall x y, x <= y -> h x <= h y).
  { intros x y L. unfold h. apply zsum_map_le. intros e He. rewrite Forall_forall in F. destruct (F e He) as [F1 F2]. apply Z.mul_le_mono_nonneg_l; [lia|]. unfold jobs_due. destruct (Z.ltb_spec x (e_deadline e)), (Z.ltb_spec y (e_deadline e)); try lia.
    - pose proof (Z.div_pos (y - e_deadline e) (e_period e) ltac:(lia) ltac:(lia)). lia.
    - assert ((x - e_deadline e) / e_period e <= (y - e_deadline e) / e_period e) by (apply Z.div_le_mono; lia). lia. }
  assert (CR : forall x, 0 <= x -> h x + w * jobs_due (ETask w T w) x <= x). { intros x X. specialize (H x X). rewrite map_app, zsum_app in H. cbn [map zsum e_cost] in H. unfold h. lia. }
  fold (h t). cbn [e_cost]. unfold jobs_due in *. cbn [e_deadline e_period] in *. destruct (Z.ltb_spec t w') as [A|A].
  - specialize (CR t Ht). destruct (Z.ltb_spec t w); lia.
  - pose proof (div_spec (t - w') T ltac:(lia)) as DV. set (n := (t - w') / T) in *. assert (N0 : 0 <= n) by (apply Z.div_pos; lia).
    (* the deadline of the larger chunk that belongs to the same job *)
    set (x := Z.max t (T * n + w)). specialize (CR x ltac:(unfold x; lia)). pose proof (MONO t x ltac:(unfold x; lia)).
    assert (XW : w <= x) by (unfold x; nia). destruct (Z.ltb_spec x w); [lia|]. assert (n <= (x - w) / T) by (apply Z.div_le_lower_bound; unfold x; lia). unfold x in *. nia.
Qed.

(** density at most one implies the criterion *)
Lemma density_criterion l : Forall wf_atask l -> (part_density l <= 1)%Q -> schedulable l.
Proof.
  intros W H t Ht. unfold part_density, ts_density in H. rewrite map_map in *.
  assert (G : (inject_Z (zsum (map (fun x => (e_cost (etask_of x) * jobs_due (etask_of x) t)%Z) l)) <= inject_Z t * qsum (map density (map core_task l)))%Q).
  { clear H. induction W as [|a l Ha W IH]; cbn [map qsum fold_right zsum]; [rewrite Qmult_0_r; apply Qle_refl|]. rewrite inject_Z_plus, Qmult_plus_distr_r. apply Qplus_le_compat; [|exact IH].
    unfold density, zdivq, core_task. cbn [t_cost t_period t_deadline]. destruct Ha as [A1 [A2 A3]]. unfold etask_of, jobs_due. cbn [e_cost e_period e_deadline].
    assert (MQ : (0 < inject_Z (Z.min (a_period a) (a_deadline a)))%Q) by (change 0%Q with (inject_Z 0); rewrite <- Zlt_Qlt; lia).
    setoid_replace (inject_Z t * (inject_Z (a_cost a) / inject_Z (Z.min (a_period a) (a_deadline a))))%Q with (inject_Z (t * a_cost a) / inject_Z (Z.min (a_period a) (a_deadline a)))%Q by (rewrite inject_Z_mult; field; intros E; rewrite E in MQ; apply (Qlt_irrefl 0 MQ)).
    apply Qle_shift_div_l; [exact MQ|]. rewrite <- inject_Z_mult, <- Zle_Qle. destruct (Z.ltb_spec t (a_deadline a)); [nia|].
    pose proof (div_spec (t - a_deadline a) (a_period a) ltac:(lia)) as DV. set (q := (t - a_deadline a) / a_period a) in *. assert (0 <= q) by (apply Z.div_pos; lia). set (mn := Z.min (a_period a) (a_deadline a)) in *.
    assert ((q + 1) * mn <= t) by (unfold mn; nia). nia. }
  assert (inject_Z (zsum (map (fun x => (e_cost (etask_of x) * jobs_due (etask_of x) t)%Z) l)) <= inject_Z t)%Q; [|rewrite Zle_Qle; exact H0].
  eapply Qle_trans; [exact G|]. rewrite map_map. rewrite <- (Qmult_1_r (inject_Z t)) at 2. rewrite (Qmult_comm (inject_Z t)), (Qmult_comm (inject_Z t)); apply Qmult_le_compat_r; [exact H|change 0%Q with (inject_Z 0); rewrite <- Zle_Qle; exact Ht].
Qed.

(** * The native calls *)

Lemma native_fold l ns : fold_left (fun ns t => add_task ns (a_cost t) (a_period t) (a_deadline t)) l ns = ns ++ map (fun t => task_init (a_cost t) (a_period t) (a_deadline t) 0 0 0) l.
Proof. revert ns. induction l as [|t l IH]; intros ns; cbn [fold_left map]; [symmetry; apply app_nil_r|]. rewrite IH. unfold add_task. rewrite <- app_assoc. reflexivity. Qed.

Lemma native_etasks l : Forall wf_atask l -> map PropQPA.etask_of (native_tasks l) = map etask_of l /\ Forall qpa_task (native_tasks l).
Proof.
  intros W. unfold native_tasks. rewrite native_fold. cbn [app]. split.
  - rewrite map_map. apply map_ext_in. intros t Ht. rewrite Forall_forall in W. destruct (W t Ht) as [? [? ?]]. unfold PropQPA.etask_of, etask_of, task_init. cbn. destruct (Z.eqb_spec (a_deadline t) 0); [lia|reflexivity].
  - apply Forall_map. eapply Forall_impl; [|exact W]. intros t [? [? ?]]. unfold qpa_task, task_init. cbn. destruct (Z.eqb_spec (a_deadline t) 0); lia.
Qed.

Lemma fits_tot l : Forall wf_atask l -> tot (fun f => qpa_it_fits f l) (fun b => b = true <-> schedulable l).
Proof.
  intros W. unfold qpa_it_fits. destruct (Qle_bool (part_density l) 1) eqn:E.
  - apply tot_ret. apply Qle_bool_iff in E. split; [intros _; apply density_criterion; assumption|reflexivity].
  - destruct (native_etasks l W) as [N1 N2]. destruct (qpa_exact_spec (native_tasks l) N2) as [N HN]. destruct (HN N (le_n N)) as [b [EB HB]]. rewrite N1 in HB. exists N, b. split; [exact HB|]. intros fuel HF.
    destruct (HN fuel HF) as [b' [EB' HB']]. rewrite EB'. cbn [native_call]. f_equal. rewrite N1 in HB'. destruct b, b'; try reflexivity; exfalso; [assert (false = true) by tauto|assert (false = true) by tauto]; discriminate.
Qed.

Definition chunk_spec (l : list atask) (t : atask) (c : Z) : Prop :=
  0 <= c <= a_cost t /\ (0 < c -> criterion (map etask_of l ++ [ETask c (a_period t) c])) /\
  (forall c', c < c' <= a_cost t -> ~ criterion (map etask_of l ++ [ETask c' (a_period t) c'])).

Lemma chunk_tot l t : Forall wf_atask l -> schedulable l -> wf_atask t -> tot (fun f => qpa_split_off_chunk f l t) (chunk_spec l t).
Proof.
  intros W S Wt. unfold qpa_split_off_chunk. destruct (native_etasks l W) as [N1 N2]. destruct Wt as [W1 [W2 W3]].
  destruct (split_spec (native_tasks l) (a_cost t) (a_period t) N2) as [N HN]; [rewrite N1; exact S|lia|lia|]. rewrite N1 in HN.
  destruct (HN N (le_n N)) as [c [EC HC]]. exists N, c. split; [exact HC|]. intros fuel HF. destruct (HN fuel HF) as [c' [EC' HC']]. rewrite EC'. cbn [native_call]. f_equal.
  destruct HC as [A1 [A2 A3]], HC' as [B1 [B2 B3]]. destruct (Z.lt_trichotomy c c') as [L|[E|L]]; [|lia|]; exfalso; [apply (A3 c')|apply (B3 c)]; try lia; [apply B2|apply A2]; lia.
Qed.

(** * Sets, sorting, mappings *)

Lemma atask_eqb_eq a b : atask_eqb a b = true <-> a = b.
Proof.
  unfold atask_eqb. split.
  - rewrite !andb_true_iff, !Z.eqb_eq. intros [[[[H1 H2] H3] H4] H5]. destruct (list_eq_dec Nat.eq_dec (a_aff a) (a_aff b)); [|discriminate]. destruct a, b. cbn in *. congruence.
  - intros ->. rewrite !Z.eqb_refl. destruct (list_eq_dec Nat.eq_dec (a_aff b) (a_aff b)); [reflexivity|congruence].
Qed.

Lemma remove_task_perm t l : In t l -> Permutation l (t :: remove_task t l).
Proof.
  induction l as [|u l IH]; [intros []|]. cbn [remove_task]. intros H. destruct (atask_eqb u t) eqn:E; [apply atask_eqb_eq in E; subst; reflexivity|].
  destruct H as [->|H]; [rewrite (proj2 (atask_eqb_eq t t) eq_refl) in E; discriminate|]. rewrite perm_swap. constructor. apply IH. exact H.
Qed.

Lemma sort_difficulty_perm naff l : Permutation (sorted_by_decreasing_difficulty naff l) l.
Proof.
  assert (I : forall t l, Permutation (insert_harder naff t l) (t :: l)).
  { intros t. induction l0 as [|u r IH]; [reflexivity|]. cbn. destruct (harder naff t u); [reflexivity|]. rewrite IH. apply perm_swap. }
  induction l as [|t l IH]; [reflexivity|]. cbn. rewrite I. constructor. exact IH.
Qed.

Lemma sort_cores_perm m l : Permutation (fold_right (insert_core m) [] l) l.
Proof.
  assert (I : forall t l, Permutation (insert_core m t l) (t :: l)).
  { intros t. induction l0 as [|u r IH]; [reflexivity|]. cbn. destruct (Qle_bool _ _); [reflexivity|]. rewrite IH. apply perm_swap. }
  induction l as [|t l IH]; [reflexivity|]. cbn. rewrite I. constructor. exact IH.
Qed.

Lemma lookup_append c c' t m : lookup c' (append c t m) = if Nat.eqb c c' then lookup c' m ++ [t] else lookup c' m.
Proof.
  induction m as [|[d l] m IH]; cbn [append lookup].
  - destruct (Nat.eqb c c'); reflexivity.
  - destruct (Nat.eqb_spec d c) as [->|N]; cbn [lookup].
    + destruct (Nat.eqb c c'); reflexivity.
    + destruct (Nat.eqb_spec d c') as [->|N2]; [destruct (Nat.eqb_spec c c'); [congruence|reflexivity]|exact IH].
Qed.

(** * Steps *)

Definition state := (list atask * mapping)%type.

Inductive step (th : Z) : state -> state -> Prop :=
| step_place un m t r c un' : Permutation un (t :: r) -> In c (a_aff t) -> schedulable (lookup c m ++ [t]) -> Permutation un' r -> step th (un, m) (un', append c t m)
| step_split un m t r c w un' : Permutation un (t :: r) -> In c (a_aff t) -> 0 < w < a_cost t -> th <= w -> th <= a_cost t - w -> schedulable (lookup c m ++ [chunk t w]) -> Permutation un' (leftover t w :: r) -> step th (un, m) (un', append c (chunk t w) m).

Inductive steps (th : Z) : state -> state -> Prop :=
| steps_refl un un' m : Permutation un un' -> steps th (un, m) (un', m)
| steps_cons s s' s'' : step th s s' -> steps th s' s'' -> steps th s s''.

Lemma step_perm_l th un un1 m s : Permutation un un1 -> step th (un, m) s -> step th (un1, m) s.
Proof.
  intros P H. inversion H; subst; [eapply step_place|eapply step_split]; try eassumption; symmetry in P; eapply perm_trans; eassumption.
Qed.

Lemma steps_perm_l th un un1 m s : Permutation un un1 -> steps th (un, m) s -> steps th (un1, m) s.
Proof.
  intros P H. inversion H; subst; [apply steps_refl; symmetry in P; eapply perm_trans; eassumption|]. eapply steps_cons; [eapply step_perm_l; eassumption|eassumption].
Qed.

Lemma steps_trans th s s' s'' : steps th s s' -> steps th s' s'' -> steps th s s''.
Proof.
  induction 1 as [un un' m P|s s' s1 H1 H2 IH]; intros H; [eapply steps_perm_l; [symmetry; exact P|exact H]|]. eapply steps_cons; [exact H1|apply IH; exact H].
Qed.

Lemma steps_frame th x s s' : steps th s s' -> steps th (fst s ++ x, snd s) (fst s' ++ x, snd s').
Proof.
  induction 1 as [un un' m P|s s' s1 H1 H2 IH]; [apply steps_refl, Permutation_app_tail, P|]. eapply steps_cons; [|exact IH]. inversion H1; subst; cbn [fst snd].
  - eapply step_place with (r := r ++ x); try eassumption; [change (t :: r ++ x) with ((t :: r) ++ x); apply Permutation_app_tail; assumption|apply Permutation_app_tail; assumption].
  - eapply step_split with (r := r ++ x); try eassumption; [change (t :: r ++ x) with ((t :: r) ++ x); apply Permutation_app_tail; assumption|change (leftover t w :: r ++ x) with ((leftover t w :: r) ++ x); apply Permutation_app_tail; assumption].
Qed.

(** what steps preserve *)
Definition good (s : state) : Prop := Forall wf_atask (fst s) /\ forall c, Forall wf_atask (lookup c (snd s)) /\ schedulable (lookup c (snd s)).

Lemma leftover_wf t w : wf_atask t -> 0 < w < a_cost t -> wf_atask (leftover t w) /\ wf_atask (chunk t w).
Proof. intros [A [B C]] W. unfold wf_atask, leftover, chunk. cbn. lia. Qed.

Lemma step_good th s s' : step th s s' -> good s -> good s'.
Proof.
  intros H [G1 G2]. inversion H; subst; cbn [fst snd] in *.
  - pose proof (Permutation_Forall H0 G1) as F. inversion F; subst. split; [eapply Permutation_Forall; [symmetry; exact H3|assumption]|]. cbn [snd]. intros c'. rewrite lookup_append. destruct (Nat.eqb_spec c c') as [->|N]; [|apply G2].
    split; [apply Forall_app; split; [apply G2|constructor; [assumption|constructor]]|assumption].
  - pose proof (Permutation_Forall H0 G1) as F. inversion F; subst. destruct (leftover_wf t w H9 H2) as [L1 L2]. split; [eapply Permutation_Forall; [symmetry; exact H6|constructor; assumption]|]. cbn [snd]. intros c'. rewrite lookup_append. destruct (Nat.eqb_spec c c') as [->|N]; [|apply G2].
    split; [apply Forall_app; split; [apply G2|constructor; [assumption|constructor]]|assumption].
Qed.

Lemma steps_good th s s' : steps th s s' -> good s -> good s'.
Proof. induction 1 as [un un' m P|s s' s1 H1 H2 IH]; intros G; [destruct G as [G1 G2]; split; [eapply Permutation_Forall; eassumption|exact G2]|apply IH; eapply step_good; eassumption]. Qed.

Definition ext (m m' : mapping) : Prop := forall c, exists k, lookup c m' = lookup c m ++ k.

Lemma ext_refl m : ext m m.
Proof. intros c. exists []. symmetry. apply app_nil_r. Qed.

Lemma ext_trans a b c : ext a b -> ext b c -> ext a c.
Proof. intros H1 H2 x. destruct (H1 x) as [k1 E1], (H2 x) as [k2 E2]. exists (k1 ++ k2). rewrite E2, E1, app_assoc. reflexivity. Qed.

Lemma steps_ext th s s' : steps th s s' -> ext (snd s) (snd s').
Proof.
  induction 1 as [un un' m P|s s' s1 H1 H2 IH]; [apply ext_refl|]. eapply ext_trans; [|exact IH]. inversion H1; subst; cbn [snd]; intros c'; rewrite lookup_append; destruct (Nat.eqb c c'); [eexists; reflexivity|exists []; symmetry; apply app_nil_r|eexists; reflexivity|exists []; symmetry; apply app_nil_r].
Qed.

Definition sum_cost (l : list atask) : Z := zsum (map a_cost l).

Lemma sum_cost_perm a b : Permutation a b -> sum_cost a = sum_cost b.
Proof. intros P. apply zsum_perm, Permutation_map, P. Qed.

Lemma sum_cost_nonneg l : Forall wf_atask l -> 0 <= sum_cost l.
Proof. intros W. apply zsum_nonneg. intros x Hx. apply in_map_iff in Hx. destruct Hx as [t [<- Ht]]. rewrite Forall_forall in W. destruct (W t Ht). lia. Qed.

Lemma steps_cost th s s' : steps th s s' -> good s -> sum_cost (fst s') <= sum_cost (fst s).
Proof.
  induction 1 as [un un' m P|s s' s1 H1 H2 IH]; intros G; [cbn [fst]; rewrite (sum_cost_perm _ _ P); lia|]. pose proof (step_good _ _ _ H1 G) as G'. specialize (IH G'). eapply Z.le_trans; [exact IH|]. destruct G as [G1 G2]. inversion H1; subst; cbn [fst] in *.
  - pose proof (Permutation_Forall H G1) as F. inversion F; subst. rewrite (sum_cost_perm _ _ H), (sum_cost_perm _ _ H4). unfold sum_cost. cbn [map zsum]. destruct H7. lia.
  - pose proof (Permutation_Forall H G1) as F. inversion F; subst. rewrite (sum_cost_perm _ _ H), (sum_cost_perm _ _ H7). unfold sum_cost. cbn [map zsum]. unfold leftover at 1. cbn [a_cost]. lia.
Qed.

(** * Steps make a correct outcome *)

Lemma pieces_place th t ps t' c : pieces th t ps (Some t') -> In c (a_aff t') -> pieces th t (ps ++ [(c, t')]) None.
Proof.
  intros H. remember (Some t') as o eqn:E. induction H as [t|t c0 Hc|t c0 w ps rest Hc Hw H1 H2 H3 IH]; intros I; [inversion E; subst; apply pieces_whole; exact I|discriminate|].
  cbn [app]. apply pieces_split; try assumption. apply IH; assumption.
Qed.

Lemma pieces_cut th t ps t' c w : pieces th t ps (Some t') -> In c (a_aff t') -> 0 < w < a_cost t' -> th <= w -> th <= a_cost t' - w -> pieces th t (ps ++ [(c, chunk t' w)]) (Some (leftover t' w)).
Proof.
  intros H. remember (Some t') as o eqn:E. induction H as [t|t c0 Hc|t c0 w0 ps rest Hc Hw H1 H2 H3 IH]; intros I W T1 T2; [inversion E; subst; apply pieces_split; try assumption; apply pieces_unassigned|discriminate|].
  cbn [app]. apply pieces_split; try assumption. apply IH; assumption.
Qed.

Definition entry := (atask * (list (nat * atask) * option atask))%type.
Definition rests (d : list entry) : list atask := flat_map (fun x => opt_list (snd (snd x))) d.
Definition placed (d : list entry) : list (nat * atask) := flat_map (fun x => fst (snd x)) d.

Lemma rests_in d t : In t (rests d) -> exists d1 t0 ps d2, d = d1 ++ (t0, (ps, Some t)) :: d2.
Proof.
  unfold rests. intros H. apply in_flat_map in H. destruct H as [[t0 [ps o]] [H1 H2]]. cbn [snd] in H2. destruct o as [u|]; [|destruct H2]. destruct H2 as [->|[]]. apply in_split in H1. destruct H1 as [d1 [d2 ->]]. exists d1, t0, ps, d2. reflexivity.
Qed.

Lemma on_core_app c a b : on_core c (a ++ b) = on_core c a ++ on_core c b.
Proof. unfold on_core. rewrite filter_app, map_app. reflexivity. Qed.

Lemma on_core_perm c a b : Permutation a b -> Permutation (on_core c a) (on_core c b).
Proof.
  intros P. unfold on_core. apply Permutation_map. induction P; cbn [filter]; [constructor| | |eapply perm_trans; eassumption].
  - destruct (Nat.eqb (fst x) c); [constructor|]; exact IHP.
  - destruct (Nat.eqb (fst y) c), (Nat.eqb (fst x) c); try reflexivity. apply perm_swap.
Qed.

Lemma on_core_one c c' t : on_core c' [(c, t)] = if Nat.eqb c c' then [t] else [].
Proof. unfold on_core. cbn. destruct (Nat.eqb c c'); reflexivity. Qed.

Definition inv (th : Z) (tasks : list atask) (before : nat -> list atask) (s : state) : Prop :=
  exists d : list entry, Permutation (map fst d) tasks /\ Forall (fun x => pieces th (fst x) (fst (snd x)) (snd (snd x))) d /\
    Permutation (fst s) (rests d) /\ forall c, Permutation (lookup c (snd s)) (before c ++ on_core c (placed d)).

Lemma inv_change th tasks before un m un' c x r t (rest : option atask) :
  inv th tasks before (un, m) -> Permutation un (t :: r) -> Permutation un' (opt_list rest ++ r) ->
  (forall t0 ps, pieces th t0 ps (Some t) -> pieces th t0 (ps ++ [(c, x)]) rest) -> inv th tasks before (un', append c x m).
Proof.
  intros [d [D1 [D2 [D3 D4]]]] P1 P2 HP. cbn [fst snd] in *.
  assert (IN : In t (rests d)). { eapply Permutation_in; [exact D3|]. eapply Permutation_in; [symmetry; exact P1|left; reflexivity]. }
  destruct (rests_in d t IN) as [d1 [t0 [ps [d2 ->]]]]. exists (d1 ++ (t0, (ps ++ [(c, x)], rest)) :: d2). cbn [fst snd].
  apply Forall_app in D2. destruct D2 as [F1 F2]. inversion F2 as [|? ? F3 F4]; subst. cbn [fst snd] in F3.
  split; [rewrite map_app in *; cbn [map fst] in *; exact D1|]. split; [apply Forall_app; split; [exact F1|constructor; [cbn [fst snd]; apply HP; exact F3|exact F4]]|]. split.
  - unfold rests in *. rewrite flat_map_app in *. cbn [flat_map snd opt_list app] in *. rewrite P2.
    assert (PR : Permutation r (flat_map (fun x0 : entry => opt_list (snd (snd x0))) d1 ++ flat_map (fun x0 : entry => opt_list (snd (snd x0))) d2)).
    { apply Permutation_cons_inv with (a := t). rewrite <- P1, D3. symmetry. apply Permutation_middle. }
    rewrite PR. rewrite !app_assoc. apply Permutation_app_tail. apply Permutation_app_comm.
  - intros c'. rewrite lookup_append. unfold placed in *. rewrite flat_map_app in *. cbn [flat_map fst snd] in *.
    assert (PL : Permutation (on_core c' (flat_map (fun x0 : entry => fst (snd x0)) d1 ++ (ps ++ [(c, x)]) ++ flat_map (fun x0 : entry => fst (snd x0)) d2)) (on_core c' (flat_map (fun x0 : entry => fst (snd x0)) d1 ++ ps ++ flat_map (fun x0 : entry => fst (snd x0)) d2) ++ (if Nat.eqb c c' then [x] else []))).
    { rewrite <- on_core_one, <- on_core_app. apply on_core_perm. rewrite <- !app_assoc. apply Permutation_app_head. apply Permutation_app_head. apply Permutation_app_comm. }
    rewrite PL. specialize (D4 c'). rewrite ?flat_map_app in D4. cbn [flat_map fst snd] in D4. destruct (Nat.eqb c c'); [rewrite D4, <- app_assoc; reflexivity|rewrite app_nil_r; exact D4].
Qed.

Lemma step_inv th tasks before s s' : step th s s' -> inv th tasks before s -> inv th tasks before s'.
Proof.
  intros H I. inversion H; subst.
  - eapply (inv_change _ _ _ _ _ _ _ _ r t None I); [assumption|cbn; assumption|]. intros t0 ps HP. apply pieces_place; assumption.
  - eapply (inv_change _ _ _ _ _ _ _ _ r t (Some (leftover t w)) I); [assumption|cbn; assumption|]. intros t0 ps HP. apply pieces_cut; assumption.
Qed.

Lemma steps_inv th tasks before s s' : steps th s s' -> inv th tasks before s -> inv th tasks before s'.
Proof.
  induction 1 as [un un' m P|s s' s1 H1 H2 IH]; intros I; [|apply IH; eapply step_inv; eassumption].
  destruct I as [d [D1 [D2 [D3 D4]]]]. exists d. cbn [fst snd] in *. split; [exact D1|]. split; [exact D2|]. split; [rewrite <- P; exact D3|exact D4].
Qed.

Lemma inv_start th un m : inv th un (fun c => lookup c m) (un, m).
Proof.
  exists (map (fun t => (t, ([], Some t))) un). cbn [fst snd]. split; [rewrite map_map; cbn; rewrite map_id; reflexivity|]. split; [apply Forall_map, Forall_forall; intros t _; cbn; apply pieces_unassigned|]. split.
  - unfold rests. rewrite flat_map_concat_map, map_map. cbn. clear. induction un; cbn; [constructor|]. constructor. assumption.
  - intros c. unfold placed. rewrite flat_map_concat_map, map_map. cbn. assert (E : concat (map (fun _ : atask => @nil (nat * atask)) un) = []) by (induction un; cbn; auto). rewrite E. cbn. rewrite app_nil_r. reflexivity.
Qed.

Lemma steps_correct th s s' : steps th s s' -> good s -> correct th (fst s) (fun c => lookup c (snd s)) (fst s') (fun c => lookup c (snd s')).
Proof.
  intros H G. split; [|intros c; apply (steps_good _ _ _ H G)]. destruct s as [un m]. exact (steps_inv th un (fun c => lookup c m) _ _ H (inv_start th un m)).
Qed.
