(** The utilization bound is exact for quantum-based scheduling. *)
From Coq Require Import ZArith QArith List Bool Lia Arith Qfield.
From Verif Require Import Base ModelTasks ModelPfair SpecUni SpecQPA SpecGlobal SpecPfair ProofGlobal ProofMatch.
Import ListNotations.
Open Scope Z_scope.

Definition zprod (l : list Z) : Z := fold_right Z.mul 1 l.

Lemma zprod_pos l : (forall x, In x l -> 0 < x) -> 0 < zprod l.
Proof. induction l as [|a l IH]; intros H; cbn [zprod fold_right]; [lia|]. specialize (IH (fun x Hx => H x (or_intror Hx))). pose proof (H a (or_introl eq_refl)). unfold zprod in IH. nia. Qed.

Lemma zprod_div l x : In x l -> (x | zprod l).
Proof.
  induction l as [|a l IH]; intros H; [destruct H|]. cbn [zprod fold_right]. destruct H as [->|H]; [apply Z.divide_factor_l|]. apply Z.divide_mul_r. apply IH. exact H.
Qed.

Lemma util_scaled H l : 0 < H -> (forall t, In t l -> 0 < t_period t /\ (t_period t | H)) ->
  (qsum (map utilization l) * inject_Z H == inject_Z (zsum (map (fun t => (t_cost t * (H / t_period t))%Z) l)))%Q.
Proof.
  intros HP. induction l as [|t l IH]; intros HA; [cbn; reflexivity|]. cbn [map qsum fold_right zsum]. rewrite inject_Z_plus, <- IH by (intros x Hx; apply HA; right; exact Hx).
  rewrite Qmult_plus_distr_l. apply Qplus_comp; [|reflexivity]. destruct (HA t (or_introl eq_refl)) as [P [q E]]. unfold utilization, zdivq.
  assert (E2 : H / t_period t = q) by (rewrite E; apply Z.div_mul; lia). rewrite E2, E, !inject_Z_mult. field. intros C. apply (inject_Z_injective (t_period t) 0) in C. lia.
Qed.

Lemma util_le H l m : 0 < H -> (forall t, In t l -> 0 < t_period t /\ (t_period t | H)) ->
  ((ts_utilization l None <= inject_Z m)%Q <-> zsum (map (fun t => t_cost t * (H / t_period t)) l) <= m * H).
Proof.
  intros HP HA. cbn [ts_utilization]. rewrite (Zle_Qle _ (m * H)), inject_Z_mult, <- (util_scaled H l HP HA). symmetry. apply Qmult_le_r. change 0%Q with (inject_Z 0). rewrite <- Zlt_Qlt. exact HP.
Qed.

Definition e_of (t : task) : etask := ETask (t_cost t) (t_period t) (t_deadline t).

(** * Sums over the jobs of all tasks *)
Lemma zsum_flat_map {A} (f : A -> Z) (g : nat -> list A) l : zsum (map f (flat_map g l)) = zsum (map (fun i => zsum (map f (g i))) l).
Proof. induction l as [|a l IH]; [reflexivity|]. cbn [flat_map map zsum]. rewrite map_app, zsum_app, IH. reflexivity. Qed.

Lemma zsum_map_filter {A} (f : A -> Z) p l : zsum (map f (filter p l)) = zsum (map (fun x => b2z (p x) * f x) l).
Proof. induction l as [|a l IH]; [reflexivity|]. cbn [filter map zsum]. destruct (p a); cbn [map zsum b2z]; rewrite IH; lia. Qed.

Lemma at_most_one {A} (p : A -> bool) (l : list A) : NoDup l -> (forall x y, In x l -> In y l -> p x = true -> p y = true -> x = y) -> zsum (map (fun x => b2z (p x)) l) <= 1.
Proof.
  induction l as [|a l IH]; intros HN H; cbn [map zsum]; [lia|]. inversion HN as [|a' l' NI HN']; subst. destruct (p a) eqn:E; cbn [b2z].
  - rewrite (zsum_map_ext _ _ (fun _ => 0)); [rewrite zsum_map_const; lia|]. intros x Hx. destruct (p x) eqn:E2; [|reflexivity]. exfalso. apply NI. rewrite (H a x (or_introl eq_refl) (or_intror Hx) E E2). exact Hx.
  - specialize (IH HN' (fun x y Hx Hy => H x y (or_intror Hx) (or_intror Hy))). lia.
Qed.

Lemma members_le l : forall L : list job, NoDup L -> zsum (map (fun j => b2z (existsb (job_eqb j) l)) L) <= Z.of_nat (length l).
Proof.
  induction l as [|a l IH]; intros L HN.
  - cbn [existsb]. rewrite zsum_map_const. cbn. lia.
  - etransitivity; [apply (zsum_map_le _ _ (fun j => b2z (job_eqb j a) + b2z (existsb (job_eqb j) l)))|].
    + intros x _. cbn [existsb]. destruct (job_eqb x a), (existsb (job_eqb x) l); cbn; lia.
    + rewrite zsum_map_add. pose proof (IH L HN). cbn [length].
      assert (zsum (map (fun j => b2z (job_eqb j a)) L) <= 1); [|lia]. apply at_most_one; [exact HN|]. intros x y _ _ Hx Hy. destruct (jeqb_spec x a), (jeqb_spec y a); congruence.
Qed.

Lemma nodup_jobs (ks : nat -> list nat) l : NoDup l -> (forall i, NoDup (ks i)) -> NoDup (flat_map (fun i => map (pair i) (ks i)) l).
Proof.
  intros HN HK. induction l as [|a l IH]; [constructor|]. cbn [flat_map]. inversion HN as [|a' l' NI HN']; subst.
  assert (D : forall x, In x (map (pair a) (ks a)) -> ~ In x (flat_map (fun i => map (pair i) (ks i)) l)).
  { intros x Hx Hy. apply in_map_iff in Hx. destruct Hx as [k [<- Hk]]. apply in_flat_map in Hy. destruct Hy as [b [Hb Hy]]. apply in_map_iff in Hy. destruct Hy as [k2 [E _]]. injection E as -> ->. contradiction. }
  assert (M : NoDup (map (pair a) (ks a))) by (apply FinFun.Injective_map_NoDup; [intros x y E; congruence|apply HK]).
  specialize (IH HN'). revert D M IH. generalize (map (pair a) (ks a)) (flat_map (fun i => map (pair i) (ks i)) l). intros u v D M V.
  induction u as [|x u IHu]; [exact V|]. cbn [app]. inversion M as [|x' u' NX M']; subst. constructor.
  - rewrite in_app_iff. intros [C|C]; [contradiction|]. apply (D x (or_introl eq_refl) C).
  - apply IHu; [intros y Hy; apply D; right; exact Hy|exact M'].
Qed.

(** * Sufficiency *)
Section Sufficient.
Variables (ts : list task) (m : nat) (s : jobseq) (N : nat).
Variable POS : forall t, In t ts -> 0 < t_period t.
Variable CT : forall t, In t ts -> t_cost t <= t_period t.
Variable U : (ts_utilization ts None <= inject_Z (Z.of_nat m))%Q.
Variable LEG : legal_edf (map e_of ts) s.

Let n := length ts.
Definition tk (i : nat) : task := nth i ts (Task 0 1 1).
Definition per (i : nat) : nat := Z.to_nat (t_period (tk i)).

Lemma tk_in i : (i < n)%nat -> In (tk i) ts.
Proof. intros H. apply nth_In. exact H. Qed.

Lemma tk_pos i : 0 < t_period (tk i).
Proof. destruct (Nat.lt_ge_cases i n) as [H|H]; [apply POS, tk_in; exact H|]. unfold tk. rewrite nth_overflow by exact H. cbn. lia. Qed.

Lemma legal_i i k : (i < n)%nat -> (arr s i k + per i <= arr s i (S k))%nat /\ rel s i k = arr s i k /\ Z.of_nat (cst s i k) <= t_cost (tk i).
Proof.
  intros H. unfold legal_edf in LEG. rewrite map_map in LEG. assert (E : nth_error ts i = Some (tk i)) by (apply nth_error_nth'; exact H).
  pose proof (LEG i _ (map_nth_error _ _ _ E) k) as [H1 [H2 [H3 H4]]]. cbn [pr_period pr_jitter pr_cost e_of e_cost e_period e_deadline] in *.
  unfold per. pose proof (tk_pos i). split; [lia|]. split; lia.
Qed.

Lemma arr_mono i k k' : (i < n)%nat -> (k < k')%nat -> (arr s i k + per i <= arr s i k')%nat.
Proof.
  intros Hi H. induction k' as [|k' IH]; [lia|]. destruct (legal_i i k' Hi) as [L _]. destruct (Nat.eq_dec k k') as [->|NE]; [exact L|]. specialize (IH ltac:(lia)). lia.
Qed.

Lemma per_pos i : (1 <= per i)%nat.
Proof. unfold per. pose proof (tk_pos i). lia. Qed.

Lemma arr_ge i k : (i < n)%nat -> (k <= arr s i k)%nat.
Proof. intros Hi. induction k as [|k IH]; [lia|]. destruct (legal_i i k Hi) as [L _]. pose proof (per_pos i). lia. Qed.

Definition jobs : list job := flat_map (fun i => map (pair i) (filter (fun k => Nat.leb (arr s i k + per i) N) (seq 0 (S N)))) (seq 0 n).
Definition win (j : job) (t : nat) : bool := Nat.leb (arr s (fst j) (snd j)) t && Nat.ltb t (arr s (fst j) (snd j) + per (fst j)).
Definition dem (j : job) : Z := Z.of_nat (cst s (fst j) (snd j)).

Lemma jobs_in i k : In (i, k) jobs <-> (i < n)%nat /\ (arr s i k + per i <= N)%nat.
Proof.
  unfold jobs. rewrite in_flat_map. split.
  - intros [x [Hx H]]. apply in_map_iff in H. destruct H as [y [E H]]. injection E as -> ->. apply filter_In in H. destruct H as [_ H]. apply Nat.leb_le in H. apply in_seq in Hx. split; [lia|exact H].
  - intros [Hi H]. exists i. split; [apply in_seq; lia|]. apply in_map. apply filter_In. split; [|apply Nat.leb_le; exact H]. apply in_seq. pose proof (arr_ge i k Hi). lia.
Qed.

Lemma jobs_nodup : NoDup jobs.
Proof. apply nodup_jobs; [apply seq_NoDup|]. intros i. apply NoDup_filter, seq_NoDup. Qed.

Let H := zprod (map t_period ts).
Definition uu (i : nat) : Z := t_cost (tk i) * (H / t_period (tk i)).

Lemma H_pos : 0 < H.
Proof. apply zprod_pos. intros x Hx. apply in_map_iff in Hx. destruct Hx as [t [<- Ht]]. apply POS. exact Ht. Qed.

Lemma H_div t : In t ts -> 0 < t_period t /\ (t_period t | H).
Proof. intros Ht. split; [apply POS; exact Ht|]. apply zprod_div. apply in_map. exact Ht. Qed.

Lemma uu_sum : zsum (map uu (seq 0 n)) <= Z.of_nat m * H.
Proof.
  pose proof (proj1 (util_le H ts (Z.of_nat m) H_pos H_div) U) as X. rewrite (zsum_map_nth _ (Task 0 1 1)) in X. rewrite <- sumf_seq. exact X.
Qed.

Lemma uu_per i : (i < n)%nat -> uu i * t_period (tk i) = H * t_cost (tk i) /\ uu i <= H.
Proof.
  intros Hi. destruct (H_div (tk i) (tk_in i Hi)) as [P [q E]]. unfold uu. assert (E2 : H / t_period (tk i) = q) by (rewrite E; apply Z.div_mul; lia). rewrite E2, E.
  pose proof (CT (tk i) (tk_in i Hi)). pose proof H_pos. rewrite E in H1. split; [lia|]. nia.
Qed.

Lemma win_sum i k c : (arr s i k + per i <= N)%nat -> sumf (fun t => b2z (win (i, k) t) * c) N = c * Z.of_nat (per i).
Proof.
  intros HN. unfold win. cbn [fst snd]. replace N with (arr s i k + (per i + (N - arr s i k - per i)))%nat by lia. rewrite sumf_split, sumf_split.
  rewrite (sumf_zero _ (arr s i k)), (sumf_ext _ (fun _ => c) (per i)), (sumf_zero _ (N - arr s i k - per i)).
  - rewrite sumf_const. lia.
  - intros t Ht. destruct (Nat.ltb_spec (arr s i k + (per i + t)) (arr s i k + per i)); [lia|]. rewrite andb_false_r. reflexivity.
  - intros t Ht. destruct (Nat.ltb_spec (arr s i k + t) (arr s i k + per i)); [|lia]. destruct (Nat.leb_spec (arr s i k) (arr s i k + t)); [|lia]. cbn [andb b2z]. lia.
  - intros t Ht. destruct (Nat.leb_spec (arr s i k) t); [lia|]. reflexivity.
Qed.

Lemma win_unique i k k' t : (i < n)%nat -> win (i, k) t = true -> win (i, k') t = true -> k = k'.
Proof.
  unfold win. cbn [fst snd]. intros Hi H1 H2. apply andb_true_iff in H1, H2. destruct H1 as [A1 B1], H2 as [A2 B2]. apply Nat.leb_le in A1, A2. apply Nat.ltb_lt in B1, B2.
  destruct (Nat.lt_trichotomy k k') as [L|[E|L]]; [|exact E|].
  - pose proof (arr_mono i k k' Hi L). lia.
  - pose proof (arr_mono i k' k Hi L). lia.
Qed.

Lemma uu_nonneg' i : (i < n)%nat -> 0 <= uu i.
Proof.
  intros Hi. destruct (legal_i i 0 Hi) as [_ [_ C]]. unfold uu. destruct (H_div (tk i) (tk_in i Hi)) as [P _]. pose proof H_pos. pose proof (Z.div_pos H (t_period (tk i)) ltac:(lia) P). nia.
Qed.

Lemma slot_load t : zsum (map (fun j => b2z (win j t) * uu (fst j)) jobs) <= Z.of_nat m * H.
Proof.
  etransitivity; [|apply uu_sum]. unfold jobs. rewrite zsum_flat_map. apply zsum_map_le. intros i Hi. apply in_seq in Hi. rewrite map_map. cbn [fst].
  rewrite (zsum_map_ext _ _ (fun k => uu i * b2z (win (i, k) t))) by (intros; apply Z.mul_comm). rewrite zsum_map_mul. pose proof (uu_nonneg' i ltac:(lia)).
  assert (zsum (map (fun k => b2z (win (i, k) t)) (filter (fun k => Nat.leb (arr s i k + per i) N) (seq 0 (S N)))) <= 1); [|nia].
  apply at_most_one; [apply NoDup_filter, seq_NoDup|]. intros x y _ _ Hx Hy. apply (win_unique i x y t ltac:(lia) Hx Hy).
Qed.

Lemma hall_ok (PJ : job -> bool) (PT : nat -> bool) :
  zsum (map (fun j => b2z (PJ j) * dem j) jobs) <=
  zsum (map (fun j => b2z (PJ j) * sumf (fun t => b2z (win j t && negb (PT t))) N) jobs) + Z.of_nat m * sumf (fun t => b2z (PT t)) N.
Proof.
  apply (Z.mul_le_mono_pos_l _ _ H H_pos). rewrite Z.mul_add_distr_l, <- !zsum_map_mul.
  assert (S1 : zsum (map (fun j => H * (b2z (PJ j) * dem j)) jobs) <=
    zsum (map (fun j => H * (b2z (PJ j) * sumf (fun t => b2z (win j t && negb (PT t))) N)) jobs) + zsum (map (fun j => sumf (fun t => b2z (PT t) * (b2z (win j t) * uu (fst j))) N) jobs)).
  { rewrite <- zsum_map_add. apply zsum_map_le. intros [i k] Hj. apply jobs_in in Hj. destruct Hj as [Hi HN].
    assert (NN : 0 <= sumf (fun t => b2z (PT t) * (b2z (win (i, k) t) * uu (fst (i, k)))) N).
    { apply sumf_nonneg. intros t _. pose proof (uu_nonneg' i Hi). cbn [fst]. destruct (PT t), (win (i, k) t); cbn [b2z]; lia. }
    assert (N2 : 0 <= H * sumf (fun t => b2z (win (i, k) t && negb (PT t))) N).
    { pose proof H_pos. assert (0 <= sumf (fun t => b2z (win (i, k) t && negb (PT t))) N); [|nia]. apply sumf_nonneg. intros t _. apply b2z_range. }
    destruct (PJ (i, k)); cbn [b2z]; [|lia]. rewrite !Z.mul_1_l.
    destruct (legal_i i k Hi) as [_ [_ C]]. destruct (uu_per i Hi) as [E1 E2]. unfold dem. cbn [fst snd].
    transitivity (uu i * t_period (tk i)); [rewrite E1; pose proof H_pos; nia|].
    pose proof (win_sum i k (uu i) HN) as W. assert (EP : Z.of_nat (per i) = t_period (tk i)) by (unfold per; pose proof (tk_pos i); lia). rewrite EP in W. rewrite <- W.
    rewrite <- sumf_mul, <- sumf_add. apply sumf_le. intros t _. pose proof (uu_nonneg' i Hi). pose proof H_pos. destruct (win (i, k) t), (PT t); cbn [b2z andb negb]; lia. }
  etransitivity; [exact S1|]. apply Z.add_le_mono_l. rewrite zsum_sumf_swap. rewrite Z.mul_assoc, <- sumf_mul. apply sumf_le. intros t _. rewrite zsum_map_mul.
  pose proof (slot_load t). destruct (PT t); cbn [b2z]; lia.
Qed.

Lemma sufficient : exists sc, gvalid n m s sc /\ forall i k, (i < n)%nat -> (arr s i k + per i <= N)%nat -> gcompleted s sc (i, k) (arr s i k + per i).
Proof.
  destruct (complete jobs N win dem (Z.of_nat m) jobs_nodup hall_ok) as [A [HA HR]]; [intros j _; unfold dem; lia|lia|].
  set (sc := fun t => filter (fun j => A j t) jobs). exists sc.
  assert (RUN : forall j t, gruns sc j t = A j t).
  { intros j t. unfold gruns, sc. destruct (A j t) eqn:E.
    - apply in_jobs. apply filter_In. split; [apply (as_in _ _ _ _ _ _ HA j t E)|exact E].
    - apply not_true_iff_false. intros C. apply in_jobs in C. apply filter_In in C. destruct C as [_ C]. congruence. }
  assert (SV : forall j q, (q <= N)%nat -> gservice sc j q = sumf (fun t => b2z (A j t)) q) by (intros j q _; apply sumf_ext; intros t _; rewrite RUN; reflexivity).
  assert (DONE : forall i k, (i < n)%nat -> (arr s i k + per i <= N)%nat -> gcompleted s sc (i, k) (arr s i k + per i)).
  { intros i k Hi HN. unfold gcompleted. rewrite SV by exact HN. assert (HJ : In (i, k) jobs) by (apply jobs_in; auto). pose proof (HR (i, k) HJ) as R. unfold row, dem in R. cbn [fst snd] in *. rewrite <- R.
    replace N with ((arr s i k + per i) + (N - (arr s i k + per i)))%nat at 1 by lia. rewrite sumf_split. rewrite (sumf_zero (fun t => b2z (A (i, k) (arr s i k + per i + t)%nat))); [lia|].
    intros t _. destruct (A (i, k) (arr s i k + per i + t)%nat) eqn:E; [|reflexivity]. exfalso. destruct (as_in _ _ _ _ _ _ HA _ _ E) as [_ [_ W]]. unfold win in W. cbn [fst snd] in W. apply andb_true_iff in W. destruct W as [_ W]. apply Nat.ltb_lt in W. lia. }
  split; [|exact DONE]. intros t. split; [|split].
  - assert (E : Z.of_nat (length (sc t)) = col jobs A t).
    { unfold col, sc. clear. induction jobs as [|j l IH]; [reflexivity|]. cbn [filter map zsum]. destruct (A j t); cbn [length b2z]; rewrite <- IH; lia. }
    destruct (Nat.lt_ge_cases t N) as [HT|HT]; [pose proof (as_col _ _ _ _ _ _ HA t HT); lia|].
    assert (Z0 : sc t = []); [|rewrite Z0; cbn; lia]. unfold sc. destruct (filter (fun j => A j t) jobs) as [|j l] eqn:EF; [reflexivity|]. exfalso. assert (I : In j (filter (fun j => A j t) jobs)) by (rewrite EF; left; reflexivity).
    apply filter_In in I. destruct (as_in _ _ _ _ _ _ HA _ _ (proj2 I)) as [_ [C _]]. lia.
  - apply NoDup_filter, jobs_nodup.
  - intros [i k] Hj. apply filter_In in Hj. destruct Hj as [HJ HT]. destruct (as_in _ _ _ _ _ _ HA _ _ HT) as [_ [TN W]]. pose proof HJ as HJ'. apply jobs_in in HJ'. destruct HJ' as [Hi HN]. cbn [fst].
    split; [exact Hi|]. unfold win in W. cbn [fst snd] in W. apply andb_true_iff in W. destruct W as [W1 W2]. apply Nat.leb_le in W1. apply Nat.ltb_lt in W2.
    unfold gready. cbn [fst snd]. destruct (legal_i i k Hi) as [_ [RL _]]. split; [lia|]. split.
    + rewrite SV by lia. pose proof (HR (i, k) HJ) as R. unfold row, dem in R. cbn [fst snd] in R. rewrite <- R.
      replace N with (S t + (N - S t))%nat by lia. rewrite sumf_split. cbn [sumf]. rewrite HT. assert (0 <= sumf (fun u => b2z (A (i, k) (S t + u)%nat)) (N - S t)) by (apply sumf_nonneg; intros u _; apply b2z_range). cbn [b2z]. lia.
    + intros k' Hk. pose proof (arr_mono i k' k Hi Hk) as M. pose proof (DONE i k' Hi ltac:(lia)) as D. unfold gcompleted in *. cbn [fst snd] in *. etransitivity; [exact D|]. apply gservice_mono. lia.
Qed.
End Sufficient.

(** * Necessity *)
Section Necessary.
Variables (ts : list task) (m : nat).
Variable POS : forall t, In t ts -> 0 < t_period t.
Variable COST : forall t, In t ts -> 0 <= t_cost t.
Variable FEAS : quantum_feasible (map e_of ts) m.

Let n := length ts.
Let H := zprod (map t_period ts).

Definition periodic : jobseq := JobSeq (fun i k => k * per ts i)%nat (fun i k => k * per ts i)%nat (fun i _ => Z.to_nat (t_cost (tk ts i))).

Lemma periodic_legal : legal_edf (map e_of ts) periodic.
Proof.
  unfold legal_edf. rewrite map_map. intros i p Hp k. rewrite nth_error_map in Hp. destruct (nth_error ts i) as [t|] eqn:E; [|discriminate]. injection Hp as <-.
  cbn [pr_period pr_jitter pr_cost e_of e_cost e_period arr rel cst periodic]. assert (Et : tk ts i = t) by (apply nth_error_nth; exact E). unfold per. rewrite Et.
  assert (It : In t ts) by (apply nth_error_In in E; exact E). pose proof (POS t It). pose proof (COST t It).
  split; [rewrite <- (Z2Nat.id (t_period t)) at 2 by lia; lia|]. split; [lia|]. split; lia.
Qed.

Definition dmax : nat := Z.to_nat (zsum (map (fun t => Z.max 0 (t_deadline t)) ts)).

Lemma dmax_ge t : In t ts -> t_deadline t <= Z.of_nat dmax.
Proof.
  intros Ht. unfold dmax. pose proof (zsum_in_le _ (fun t => Z.max 0 (t_deadline t)) ts t (fun y _ => Z.le_max_l _ _) Ht). cbv beta in *. lia.
Qed.

Definition hz (K : nat) : nat := (K * Z.to_nat H + dmax)%nat.
Definition jn (K i : nat) : nat := (K * Z.to_nat (H / t_period (tk ts i)))%nat.

Lemma HH_pos : 0 < H.
Proof. apply zprod_pos. intros x Hx. apply in_map_iff in Hx. destruct Hx as [t [<- Ht]]. apply POS. exact Ht. Qed.

Lemma HH_div i : (i < n)%nat -> 0 < t_period (tk ts i) /\ H = H / t_period (tk ts i) * t_period (tk ts i).
Proof.
  intros Hi. assert (It : In (tk ts i) ts) by (apply nth_In; exact Hi). split; [apply POS; exact It|].
  assert (D : (t_period (tk ts i) | H)) by (apply zprod_div, in_map; exact It). destruct D as [q E]. rewrite E at 2. rewrite Z.div_mul; [exact E|]. pose proof (POS _ It). lia.
Qed.

Lemma all_done K : exists sc, gvalid n m periodic sc /\ forall i k, (i < n)%nat -> (k < jn K i)%nat -> gservice sc (i, k) (hz K) >= t_cost (tk ts i).
Proof.
  destruct (FEAS periodic periodic_legal (hz K)) as [sc [V R]]. rewrite map_length in V. exists sc. split; [exact V|]. intros i k Hi Hk.
  assert (E : nth_error (map e_of ts) i = Some (e_of (tk ts i))) by (apply map_nth_error, nth_error_nth'; exact Hi).
  destruct (HH_div i Hi) as [P EH]. assert (It : In (tk ts i) ts) by (apply nth_In; exact Hi).
  assert (AR : (arr periodic i k + dmax <= hz K)%nat).
  { unfold hz. cbn [arr periodic]. apply Nat.add_le_mono_r. unfold per. unfold jn in Hk.
    assert (EN : Z.to_nat H = (Z.to_nat (H / t_period (tk ts i)) * Z.to_nat (t_period (tk ts i)))%nat).
    { rewrite EH at 1. rewrite Z2Nat.inj_mul; [reflexivity| |lia]. apply Z.div_pos; [pose proof HH_pos; lia|exact P]. }
    rewrite EN. nia. }
  pose proof (dmax_ge _ It) as DG.
  destruct (R (i, k) _ E) as [q [Q1 Q2]]; [cbn [fst snd e_of e_deadline]; lia|]. cbn [fst snd e_of e_deadline] in Q1. unfold gcompleted in Q2. cbn [fst snd cst periodic] in Q2.
  pose proof (COST _ It). pose proof (gservice_mono sc (i, k) q (hz K) ltac:(lia)). lia.
Qed.

Lemma one_per_task sc i t ks : gvalid n m periodic sc -> NoDup ks -> zsum (map (fun k => b2z (gruns sc (i, k) t)) ks) <= 1.
Proof.
  intros V HN. apply at_most_one; [exact HN|]. intros x y _ _ Hx Hy. unfold gruns in Hx, Hy. apply in_jobs in Hx, Hy. destruct (V t) as [_ [_ RD]].
  destruct (RD _ Hx) as [_ [_ [X1 X2]]]. destruct (RD _ Hy) as [_ [_ [Y1 Y2]]]. cbn [fst snd] in *. unfold gcompleted in *. cbn [fst snd] in *.
  destruct (Nat.lt_trichotomy x y) as [L|[E|L]]; [|exact E|].
  - specialize (Y2 x L). lia.
  - specialize (X2 y L). lia.
Qed.

Lemma task_load K i : (i < n)%nat -> Z.of_nat K * (t_cost (tk ts i) * (H / t_period (tk ts i))) <= Z.of_nat (hz K).
Proof.
  intros Hi. destruct (all_done K) as [sc [V D]].
  assert (S1 : zsum (map (fun k => t_cost (tk ts i)) (seq 0 (jn K i))) <= zsum (map (fun k => gservice sc (i, k) (hz K)) (seq 0 (jn K i)))).
  { apply zsum_map_le. intros k Hk. apply in_seq in Hk. pose proof (D i k Hi ltac:(lia)). lia. }
  rewrite zsum_map_const, seq_length in S1. unfold gservice in S1. rewrite zsum_sumf_swap in S1.
  assert (S2 : sumf (fun t => zsum (map (fun k => b2z (gruns sc (i, k) t)) (seq 0 (jn K i)))) (hz K) <= sumf (fun _ => 1) (hz K)) by (apply sumf_le; intros t _; apply one_per_task; [exact V|apply seq_NoDup]).
  rewrite sumf_const in S2. unfold jn in S1 at 1. destruct (HH_div i Hi) as [P _]. pose proof (Z.div_pos H (t_period (tk ts i)) ltac:(pose proof HH_pos; lia) P). rewrite Nat2Z.inj_mul, Z2Nat.id in S1 by assumption. lia.
Qed.

Lemma total_load K : Z.of_nat K * zsum (map (fun t => t_cost t * (H / t_period t)) ts) <= Z.of_nat m * Z.of_nat (hz K).
Proof.
  destruct (all_done K) as [sc [V D]]. set (JL := flat_map (fun i => map (pair i) (seq 0 (jn K i))) (seq 0 n)).
  assert (S1 : zsum (map (fun j => t_cost (tk ts (fst j))) JL) <= zsum (map (fun j => gservice sc j (hz K)) JL)).
  { apply zsum_map_le. intros [i k] Hj. apply in_flat_map in Hj. destruct Hj as [x [Hx Hj]]. apply in_map_iff in Hj. destruct Hj as [y [E Hy]]. injection E as -> ->. apply in_seq in Hx, Hy. cbn [fst]. pose proof (D i k ltac:(lia) ltac:(lia)). lia. }
  assert (S2 : zsum (map (fun j => gservice sc j (hz K)) JL) <= Z.of_nat m * Z.of_nat (hz K)).
  { unfold gservice. rewrite zsum_sumf_swap. rewrite <- (sumf_const (Z.of_nat m)). apply sumf_le. intros t _. etransitivity; [apply (members_le (sc t) JL)|].
    - apply nodup_jobs; [apply seq_NoDup|intros; apply seq_NoDup].
    - destruct (V t) as [LE _]. lia. }
  assert (S3 : zsum (map (fun j => t_cost (tk ts (fst j))) JL) = Z.of_nat K * zsum (map (fun t => t_cost t * (H / t_period t)) ts)).
  { unfold JL. rewrite zsum_flat_map. rewrite (zsum_map_nth _ (Task 0 1 1)). rewrite <- sumf_seq, <- sumf_mul. apply sumf_ext. intros i Hi. rewrite map_map. cbn [fst]. rewrite zsum_map_const, seq_length. unfold jn. fold (tk ts i).
    destruct (HH_div i Hi) as [P _]. pose proof (Z.div_pos H (t_period (tk ts i)) ltac:(pose proof HH_pos; lia) P). rewrite Nat2Z.inj_mul, Z2Nat.id by assumption. lia. }
  lia.
Qed.

Lemma archimedes a b c : 0 <= c -> (forall K : nat, Z.of_nat K * a <= Z.of_nat K * b + c) -> a <= b.
Proof. intros Hc HK. destruct (Z.le_gt_cases a b) as [L|G]; [exact L|]. exfalso. specialize (HK (Z.to_nat (c + 1))). rewrite Z2Nat.id in HK by lia. nia. Qed.

Lemma necessary : (ts_utilization ts None <= inject_Z (Z.of_nat m))%Q /\ forall t, In t ts -> t_cost t <= t_period t.
Proof.
  assert (EZ : forall K, Z.of_nat (hz K) = Z.of_nat K * H + Z.of_nat dmax) by (intros K; unfold hz; rewrite Nat2Z.inj_add, Nat2Z.inj_mul, Z2Nat.id by (pose proof HH_pos; lia); reflexivity).
  split.
  - apply (util_le H ts (Z.of_nat m) HH_pos).
    + intros t Ht. split; [apply POS; exact Ht|apply zprod_div, in_map; exact Ht].
    + apply (archimedes _ _ (Z.of_nat m * Z.of_nat dmax)); [nia|]. intros K. pose proof (total_load K) as L. rewrite EZ in L. lia.
  - intros t Ht. destruct (In_nth ts t (Task 0 1 1) Ht) as [i [Hi E]]. fold (tk ts i) in E. destruct (HH_div i Hi) as [P EH].
    assert (L : t_cost (tk ts i) * (H / t_period (tk ts i)) <= H).
    { apply (archimedes _ _ (Z.of_nat dmax)); [lia|]. intros K. pose proof (task_load K i Hi) as L. rewrite EZ in L. lia. }
    rewrite E in *. pose proof HH_pos. assert (0 < H / t_period t) by nia. nia.
Qed.
End Necessary.
