(** The requests that delay the jobs of a window form a plausible vector. *)
From Coq Require Import NArith ZArith QArith Qround List Bool Lia Arith.
From Verif Require Base.
From Verif Require Import ModelLocking ModelLP ModelLPSpin ModelPEDF SpecLocking SpecLP SpecSpinFP SpecSpinEDF SpecPEDF ProofLocking ProofLockingMono ProofLPSpin ProofSpin ProofSpinCount ProofSpinFP ProofMSRP ProofMSRPTest ProofLockRules ProofPEDFVec ProofPEDFLP.
Import ListNotations ModelPEDF.
Open Scope Z_scope.

(** ** Counting *)

Lemma ceil_ZN a b : (0 < b)%N -> Z.of_N (divide_with_ceil a b) = div_ceil (Z.of_N a) (Z.of_N b).
Proof.
  intros B. apply Z.le_antisymm.
  - destruct (Z.le_gt_cases (Z.of_N (divide_with_ceil a b)) (div_ceil (Z.of_N a) (Z.of_N b))) as [L|L]; [exact L|exfalso].
    assert (NN : 0 <= div_ceil (Z.of_N a) (Z.of_N b)). { unfold div_ceil. pose proof (Z.div_pos (Z.of_N a) (Z.of_N b) ltac:(lia) ltac:(lia)). destruct (_ =? 0); lia. }
    set (k := div_ceil (Z.of_N a) (Z.of_N b)) in *. assert (X : (Z.to_N k < divide_with_ceil a b)%N) by lia. apply (divide_with_ceil_spec a b B) in X.
    assert (Y : k < k); [|lia]. apply (div_ceil_spec (Z.of_N a) (Z.of_N b) ltac:(lia)). nia.
  - destruct (Z.le_gt_cases (div_ceil (Z.of_N a) (Z.of_N b)) (Z.of_N (divide_with_ceil a b))) as [L|L]; [exact L|exfalso].
    apply (div_ceil_spec (Z.of_N a) (Z.of_N b) ltac:(lia)) in L. assert (Y : (divide_with_ceil a b < divide_with_ceil a b)%N); [|lia]. apply (divide_with_ceil_spec a b B). lia.
Qed.

Definition cnt {A} (p : A -> bool) (l : list A) : Z := Z.of_nat (length (filter p l)).
Lemma cnt_cons {A} (p : A -> bool) x l : cnt p (x :: l) = (if p x then 1 else 0) + cnt p l.
Proof. unfold cnt. cbn [filter]. destruct (p x); cbn [length]; lia. Qed.
Lemma cnt_or {A} (p q : A -> bool) l : (forall x, p x = true -> q x = true -> False) -> cnt p l + cnt q l = cnt (fun x => p x || q x) l.
Proof. intros H. induction l as [|x l IH]; [reflexivity|]. rewrite !cnt_cons. specialize (H x). destruct (p x), (q x); cbn [orb]; try (exfalso; apply H; reflexivity); lia. Qed.

Definition of_task (x : nat) (b : creq) : bool := Nat.eqb (cr_task b) x.

(** the members of some tasks *)
Lemma tasks_count (ts : list taskinfo) p l (on : creq -> bool) : NoDup (map ti_id ts) -> (forall b x, In x ts -> cr_task b = ti_id x -> on b = true) ->
  zs (fun x => cnt (fun b => of_task (ti_id x) b && p b) l) ts <= cnt (fun b => on b && p b) l.
Proof.
  intros ND H. induction l as [|b l IH]; [unfold cnt; cbn; rewrite zs_zero; lia|].
  rewrite (zs_ext _ (fun x => (if of_task (ti_id x) b && p b then 1 else 0) + cnt (fun b => of_task (ti_id x) b && p b) l)) by (intros x _; exact (cnt_cons (fun b => of_task (ti_id x) b && p b) b l)). rewrite zs_plus, cnt_cons.
  enough (zs (fun x => if of_task (ti_id x) b && p b then 1 else 0) ts <= if on b && p b then 1 else 0) by lia.
  destruct (on b && p b) eqn:O.
  - apply (zs_unique _ ti_id (cr_task b) ts ND). intros x _. unfold of_task. rewrite (Nat.eqb_sym (ti_id x)). destruct (Nat.eqb (cr_task b) (ti_id x)); cbn; [destruct (p b)|]; lia.
  - transitivity (zs (fun _ => 0) ts); [apply zs_le|rewrite zs_zero; lia]. intros x X. unfold of_task. destruct (Nat.eqb_spec (cr_task b) (ti_id x)) as [E|E]; cbn [andb]; [|lia]. rewrite (H b x X E) in O. cbn [andb] in O. rewrite O. lia.
Qed.

(** a sum over requests as a sum over tasks *)
Lemma by_task (f : taskinfo -> Z) (ts : list taskinfo) (g : creq -> Z) p l : (forall x, In x ts -> 0 <= f x) -> (forall b, In b l -> p b = true -> exists x, In x ts /\ cr_task b = ti_id x /\ g b <= f x) ->
  zs g (filter p l) <= zs (fun x => f x * cnt (fun b => of_task (ti_id x) b && p b) l) ts.
Proof.
  intros F H. induction l as [|b l IH]; [cbn; unfold cnt; cbn; rewrite (zs_ext _ (fun _ => 0)) by (intros; lia); rewrite zs_zero; reflexivity|].
  specialize (IH (fun y Y => H y (or_intror Y))). cbn [filter]. destruct (p b) eqn:P.
  - destruct (H b (or_introl eq_refl) P) as [x [X [T G]]]. rewrite zs_cons.
    transitivity (zs (fun x => f x * cnt (fun b => of_task (ti_id x) b && p b) l) ts + g b); [lia|]. apply zs_more with (x := x).
    + intros y Y. specialize (F y Y). rewrite cnt_cons. destruct (of_task (ti_id y) b && p b); nia.
    + exact X.
    + rewrite cnt_cons. unfold of_task at 2. rewrite T, Nat.eqb_refl, P. cbn [andb]. nia.
  - etransitivity; [exact IH|]. apply zs_le. intros y Y. specialize (F y Y). rewrite cnt_cons, P, andb_false_r. nia.
Qed.

Lemma zs_swap {A B} (f : A -> B -> Z) la lb : zs (fun a => zs (f a) lb) la = zs (fun b => zs (fun a => f a b) la) lb.
Proof. induction la as [|a la IH]; [cbn; rewrite zs_zero; reflexivity|]. rewrite zs_cons, IH, <- zs_plus. apply zs_ext. intros b _. rewrite zs_cons. reflexivity. Qed.

Lemma nsum_zs {A} (f : A -> nat) l : Z.of_nat (nsum f l) = zs (fun x => Z.of_nat (f x)) l.
Proof. induction l as [|x l IH]; [reflexivity|]. cbn [nsum fold_right]. fold (nsum f l). rewrite zs_cons. lia. Qed.

Lemma filter_and {A} (p q : A -> bool) l : filter p (filter q l) = filter (fun x => p x && q x) l.
Proof. induction l as [|x l IH]; [reflexivity|]. cbn [filter]. destruct (q x) eqn:Q; cbn [filter]; [destruct (p x); cbn [andb]; rewrite IH; reflexivity|rewrite andb_false_r; exact IH]. Qed.

Section Window.
Variables (info : list taskinfo) (E : execution) (n : nat).
Hypothesis LR : lock_rules info E.
Hypothesis FO : fifo_order info E.
Hypothesis OK : msrp_ok info n.
Variables (c : nat) (m : mode) (s e : Z) (wj : taskinfo -> list nat) (blk : option (nat * creq)).
Hypothesis SE : s <= e.
Hypothesis ONTIME : forall i k u y, nth_error info i = Some u -> y < e -> pending E (i, k) y -> y < x_rel E i k + deadline u.
Hypothesis COUNT : forall u, In u info -> ti_cluster u = c -> Z.of_nat (length (wj u)) <= njobs exact m (e - s) u.
Hypothesis BLK : match blk with None => True | Some (r, a) => m = PDC_MODE /\ In a (x_tr E r) /\ global_resource info r /\ exists u, nth_error info (cr_task a) = Some u /\ ti_cluster u = c /\ e - s < deadline u end.
Hypothesis COVER : forall y, s <= y < e -> exists j, x_sched E c y = Some j /\
  ((exists u, In u info /\ ti_cluster u = c /\ ti_id u = fst j /\ In (snd j) (wj u)) \/ exists r a, blk = Some (r, a) /\ jobof a = j /\ cr_issue a <= y < cr_end a).

Definition onk (k : nat) (b : creq) : bool := match nth_error info (cr_task b) with Some u => Nat.eqb (ti_cluster u) k | None => false end.
Lemma onk_spec k b : onk k b = true <-> exists u, nth_error info (cr_task b) = Some u /\ ti_cluster u = k.
Proof. unfold onk. destruct (nth_error info (cr_task b)) as [u|]; [rewrite Nat.eqb_eq; split; [intros H; exists u; auto|intros [u' [U C]]; congruence]|split; [discriminate|intros [u [U _]]; discriminate]]. Qed.

(** [b], of another processor, holds the resource while [g] waits in the window *)
Definition dlb (g b : creq) : bool :=
  negb (onk c b) && (Z.max (Z.max (cr_issue g) (cr_start b)) s <? Z.min (Z.min (cr_start g) (cr_end b)) e).
Lemma dlb_spec g b : dlb g b = true -> onk c b = false /\ exists y, s <= y < e /\ cr_issue g <= y < cr_start g /\ cr_start b <= y < cr_end b.
Proof. unfold dlb. rewrite andb_true_iff, negb_true_iff, Z.ltb_lt. intros [A B]. split; [exact A|]. exists (Z.max (Z.max (cr_issue g) (cr_start b)) s). lia. Qed.
Lemma dlb_intro g b y : onk c b = false -> s <= y < e -> cr_issue g <= y < cr_start g -> cr_start b <= y < cr_end b -> dlb g b = true.
Proof. intros A B C D. unfold dlb. rewrite A. cbn [negb andb]. apply Z.ltb_lt. lia. Qed.

Lemma tr_nodup r : NoDup (x_tr E r).
Proof.
  pose proof (lr_sequential _ _ LR r) as S. pose proof (lr_times _ _ LR r) as T. induction S as [|a l F S IH]; constructor.
  - intros I. rewrite Forall_forall in F. specialize (F a I eq_refl). destruct (T a (or_introl eq_refl)). unfold apart in F. lia.
  - apply IH. intros b B. apply T. right. exact B.
Qed.

(** a holder was issued before the request that waits for it *)
Lemma holder r g b y : In g (x_tr E r) -> In b (x_tr E r) -> global_resource info r -> cr_issue g <= y < cr_start g -> cr_start b <= y < cr_end b -> cr_issue b <= cr_issue g < cr_end b.
Proof.
  intros G B GR Y1 Y2. destruct (lr_times _ _ LR r b B) as [T1 T2]. split; [|lia]. destruct (Z.le_gt_cases (cr_issue b) (cr_issue g)) as [L|L]; [exact L|]. pose proof (FO r g b GR G B L). destruct (lr_times _ _ LR r g G). lia.
Qed.

Lemma one_per_cluster r g b b' k : In g (x_tr E r) -> In b (x_tr E r) -> In b' (x_tr E r) -> global_resource info r -> dlb g b = true -> dlb g b' = true -> onk k b = true -> onk k b' = true -> b = b'.
Proof.
  intros G B B' GR D D' K K'. destruct (dlb_spec g b D) as [_ [y [_ [Y1 Y2]]]]. destruct (dlb_spec g b' D') as [_ [y' [_ [Y1' Y2']]]].
  pose proof (holder r g b y G B GR Y1 Y2) as H. pose proof (holder r g b' y' G B' GR Y1' Y2') as H'.
  apply onk_spec in K, K'. destruct K as [u [U CU]]. destruct K' as [u' [U' CU']].
  assert (J : jobof b = jobof b'). { apply (runs_same info E (jobof b) (jobof b') (cr_issue g) u u' U U' ltac:(congruence)); [apply (lr_nonpreemptive _ _ LR r b _ B GR H)|apply (lr_nonpreemptive _ _ LR r b' _ B' GR H')]. }
  destruct (lr_one_request info E LR r r b b' (cr_issue g) B B' J H H') as [_ X]. exact X.
Qed.

(** a request of the processor that waits is delayed by a request of another one *)
Lemma waits r g y : In g (x_tr E r) -> global_resource info r -> onk c g = true -> s <= y < e -> cr_issue g <= y < cr_start g -> exists b, In b (x_tr E r) /\ dlb g b = true /\ cr_start b <= y < cr_end b.
Proof.
  intros G GR K W Y. destruct (lr_busy _ _ LR r g y G GR Y) as [b [B Y2]]. exists b. split; [exact B|split; [|exact Y2]]. apply (dlb_intro g b y); try assumption.
  destruct (onk c b) eqn:KB; [exfalso|reflexivity]. pose proof (holder r g b y G B GR Y Y2) as H. destruct (lr_times _ _ LR r g G) as [T1 T2]. apply onk_spec in K, KB. destruct K as [u [U CU]]. destruct KB as [u' [U' CU']].
  assert (J : jobof b = jobof g). { apply (runs_same info E (jobof b) (jobof g) (cr_issue g) u' u U' U ltac:(congruence)); [apply (lr_nonpreemptive _ _ LR r b _ B GR H)|apply (lr_nonpreemptive _ _ LR r g _ G GR); lia]. }
  destruct (lr_one_request info E LR r r b g (cr_issue g) B G J H ltac:(lia)) as [_ ->]. lia.
Qed.

Definition isW (g : creq) : bool := match nth_error info (cr_task g) with Some u => Nat.eqb (ti_cluster u) c && existsb (Nat.eqb (cr_job g)) (wj u) | None => false end.
Lemma isW_spec g : isW g = true <-> exists u, nth_error info (cr_task g) = Some u /\ ti_cluster u = c /\ In (cr_job g) (wj u).
Proof.
  unfold isW. destruct (nth_error info (cr_task g)) as [u|]; [|split; [discriminate|intros [u [U _]]; discriminate]]. rewrite andb_true_iff, Nat.eqb_eq, existsb_exists. split.
  - intros [A [x [B C]]]. apply Nat.eqb_eq in C. subst x. exists u. auto.
  - intros [u' [U [A B]]]. inversion U; subst u'. split; [exact A|]. exists (cr_job g). split; [exact B|apply Nat.eqb_refl].
Qed.

Definition glob (r : nat) : bool := globalb info r.
Definition ps (r : nat) (b : creq) : bool := glob r && existsb (fun g => isW g && dlb g b) (x_tr E r).
Definition pa (r : nat) (b : creq) : bool := match blk with Some (r', a) => Nat.eqb r' r && dlb a b && negb (ps r b) | None => false end.
Definition pp (r : nat) (b : creq) : bool := ps r b || pa r b.

Lemma ps_spec r b : ps r b = true -> global_resource info r /\ exists g, In g (x_tr E r) /\ isW g = true /\ dlb g b = true.
Proof. unfold ps, glob. rewrite andb_true_iff, existsb_exists. intros [A [g [B C]]]. apply globalb_spec in A. apply andb_true_iff in C. split; [exact A|]. exists g. tauto. Qed.
Lemma ps_intro r b g : global_resource info r -> In g (x_tr E r) -> isW g = true -> dlb g b = true -> ps r b = true.
Proof. intros A B C D. unfold ps, glob. apply andb_true_iff. split; [apply globalb_spec; exact A|]. apply existsb_exists. exists g. rewrite C, D. auto. Qed.
Lemma pa_spec r b : pa r b = true -> exists a, blk = Some (r, a) /\ dlb a b = true /\ ps r b = false.
Proof. unfold pa. destruct blk as [[r' a]|]; [|discriminate]. rewrite !andb_true_iff, Nat.eqb_eq, negb_true_iff. intros [[-> A] B]. exists a. auto. Qed.
Lemma pp_spec r b : pp r b = true -> global_resource info r /\ exists g, In g (x_tr E r) /\ onk c g = true /\ dlb g b = true.
Proof.
  unfold pp. rewrite orb_true_iff. intros [H|H].
  - apply ps_spec in H. destruct H as [G [g [A [B C]]]]. split; [exact G|]. exists g. split; [exact A|split; [|exact C]]. apply isW_spec in B. destruct B as [u [U [CU _]]]. apply onk_spec. exists u. auto.
  - apply pa_spec in H. destruct H as [a [B [D _]]]. pose proof BLK as X. rewrite B in X. destruct X as [_ [IA [G [u [U [CU _]]]]]]. split; [exact G|]. exists a. split; [exact IA|split; [apply onk_spec; exists u; auto|exact D]].
Qed.
Lemma disj r b : ps r b = true -> pa r b = true -> False.
Proof. intros H A. apply pa_spec in A. destruct A as [a [_ [_ F]]]. congruence. Qed.

Definition V : vec := Vec (fun x q => cnt (fun b => of_task x b && ps q b) (x_tr E q)) (fun x q => cnt (fun b => of_task x b && pa q b) (x_tr E q))
  (match blk with Some (r, a) => match nth_error info (cr_task a) with Some u => Some (u, r) | None => None end | None => None end).

Lemma v_sum x q : v_s V x q + v_a V x q = cnt (fun b => of_task x b && pp q b) (x_tr E q).
Proof.
  cbn [V v_s v_a]. rewrite cnt_or.
  - unfold cnt. do 2 f_equal. apply filter_ext. intros b. unfold pp. destruct (of_task x b); reflexivity.
  - intros b A B. apply andb_true_iff in A, B. exact (disj q b (proj2 A) (proj2 B)).
Qed.

Lemma ind_V q : ind V q = match blk with Some (r, _) => if Nat.eqb r q then 1 else 0 | None => 0 end.
Proof. unfold ind. cbn [V v_b]. pose proof BLK as B. destruct blk as [[r a]|]; [|reflexivity]. destruct B as [_ [_ [_ [u [U _]]]]]. rewrite U. reflexivity. Qed.

(** the requests of task [x] for [q], of jobs that are pending near an interval *)
Lemma task_requests x q l lo D k : In x info -> (forall b, In b l -> In b (x_tr E q) /\ cr_task b = ti_id x /\ lo - deadline x < x_rel E (ti_id x) (cr_job b) < lo + D) ->
  (forall j, Z.of_nat (length (filter (is_job (ti_id x) j) l)) <= k) -> 0 <= D -> 0 <= k -> Z.of_nat (length l) <= max_num_remote_jobs exact x D * k.
Proof.
  intros X H K D0 K0. pose proof (wf_id info x (mo_wf _ _ OK) X) as ID. destruct (proj2 (mo_wf _ _ OK) x X) as [P _]. pose proof (deadline_pos info n OK x X) as DP.
  pose proof (requests_bound (x_rel E (ti_id x)) (ti_period x) P (fun j => proj2 (lr_rel _ _ LR (ti_id x) j x ID)) (ti_id x) (Z.to_N k) l (lo - deadline x) (Z.to_N (D + deadline x))) as R.
  specialize (R ltac:(intros b B; destruct (H b B) as [_ [T L]]; split; [exact T|lia]) ltac:(intros j; specialize (K j); lia)).
  assert (C : Z.of_N (divide_with_ceil (Z.to_N (D + deadline x)) (ti_period x)) = max_num_remote_jobs exact x D).
  { rewrite (ceil_ZN _ _ P). unfold max_num_remote_jobs, exact, period. rewrite Z2N.id by lia. reflexivity. }
  rewrite <- C. nia.
Qed.

Lemma filter_filter_le {A} (p q r : A -> bool) l : (length (filter p (filter (fun b => q b && r b) l)) <= length (filter p l))%nat.
Proof. induction l as [|a l IH]; cbn [filter]; [lia|]. destruct (q a && r a), (p a) eqn:P; cbn [filter length]; rewrite ?P; cbn [length]; lia. Qed.

Lemma job_requests x q j p : In x info -> In q (map q_res (ti_requests x)) -> Z.of_nat (length (filter (is_job (ti_id x) j) (filter (fun b => of_task (ti_id x) b && p b) (x_tr E q)))) <= num x q.
Proof.
  intros X Q. apply in_map_iff in Q. destruct Q as [r [<- R]]. pose proof (lr_number _ _ LR (q_res r) (ti_id x) j x r (wf_id info x (mo_wf _ _ OK) X) R eq_refl) as L. rewrite (num_request info n OK x r X R).
  pose proof (filter_filter_le (is_job (ti_id x) j) (of_task (ti_id x)) p (x_tr E (q_res r))). lia.
Qed.

Lemma requester q b : In b (x_tr E q) -> exists x, In x info /\ ti_id x = cr_task b /\ nth_error info (cr_task b) = Some x /\ In q (map q_res (ti_requests x)).
Proof.
  intros B. destruct (lr_spec _ _ LR q b B) as [x [r [X [R [RQ _]]]]]. exists x. destruct (wf_nth info _ x (mo_wf _ _ OK) X) as [ID I]. repeat split; auto. apply in_map_iff. exists r. auto.
Qed.

(** a delaying request is pending in the window, and its job is on time *)
Lemma delaying r g b : In g (x_tr E r) -> In b (x_tr E r) -> dlb g b = true -> exists y u w, s <= y < e /\ nth_error info (cr_task b) = Some u /\ nth_error info (cr_task g) = Some w /\
  x_rel E (cr_task b) (cr_job b) <= y < x_rel E (cr_task b) (cr_job b) + deadline u /\ x_rel E (cr_task g) (cr_job g) <= y < x_rel E (cr_task g) (cr_job g) + deadline w.
Proof.
  intros G B D. destruct (dlb_spec g b D) as [_ [y [W [Y1 Y2]]]]. destruct (requester r b B) as [u [_ [_ [U _]]]]. destruct (requester r g G) as [w [_ [_ [W' _]]]].
  destruct (lr_times _ _ LR r b B) as [T1 T2]. destruct (lr_times _ _ LR r g G) as [T3 T4]. destruct (lr_job _ _ LR r b B) as [J1 J2]. destruct (lr_job _ _ LR r g G) as [J3 J4].
  exists y, u, w. split; [exact W|split; [exact U|split; [exact W'|]]]. split; (split; [lia|]).
  - apply (ONTIME (cr_task b) (cr_job b) u y U ltac:(lia)). unfold pending. cbn [fst snd]. lia.
  - apply (ONTIME (cr_task g) (cr_job g) w y W' ltac:(lia)). unfold pending. cbn [fst snd]. lia.
Qed.

Lemma no_request x q p : In x info -> ~ In q (map q_res (ti_requests x)) -> filter (fun b => of_task (ti_id x) b && p b) (x_tr E q) = [].
Proof.
  intros X Q. destruct (filter _ _) as [|b l] eqn:F; [reflexivity|exfalso]. assert (I : In b (b :: l)) by (left; reflexivity). rewrite <- F in I. apply filter_In in I. destruct I as [I T]. apply andb_true_iff in T. destruct T as [T _]. apply Nat.eqb_eq in T.
  destruct (requester q b I) as [y [Y [ID [_ R]]]]. assert (y = x) by (apply (same_id info n OK y x Y X); congruence). subst y. contradiction.
Qed.

Lemma near x q b : In x info -> In b (x_tr E q) -> of_task (ti_id x) b && pp q b = true -> cr_task b = ti_id x /\ s - deadline x < x_rel E (ti_id x) (cr_job b) < s + (e - s).
Proof.
  intros X B H. apply andb_true_iff in H. destruct H as [T H]. apply Nat.eqb_eq in T. split; [exact T|]. apply pp_spec in H. destruct H as [_ [g [G [_ D]]]].
  destruct (delaying q g b G B D) as [y [u [w [W [U [_ [L _]]]]]]]. rewrite T, (wf_id info x (mo_wf _ _ OK) X) in U. inversion U; subst u. rewrite T in L. lia.
Qed.

Lemma V_requests x q : In x info -> v_s V (ti_id x) q + v_a V (ti_id x) q <= max_num_remote_jobs exact x (e - s) * num x q.
Proof.
  intros X. rewrite v_sum. unfold cnt. destruct (in_dec Nat.eq_dec q (map q_res (ti_requests x))) as [R|R].
  - apply (task_requests x q _ s (e - s) (num x q) X); [|intros j; apply job_requests; assumption|lia|apply num_nonneg].
    intros b B. apply filter_In in B. destruct B as [B H]. split; [exact B|]. apply (near x q b X B H).
  - rewrite (no_request x q (pp q) X R). cbn. pose proof (nr_nonneg info n OK x (e - s) X ltac:(lia)). pose proof (num_nonneg x q). nia.
Qed.

(** requests of local jobs near a remote job *)
Lemma V_task x q : In x info -> v_s V (ti_id x) q + v_a V (ti_id x) q <= zs (fun i => max_num_remote_jobs exact i (deadline x) * num i q * max_num_remote_jobs exact x (e - s)) (tasks_in c info).
Proof.
  intros X. rewrite v_sum. unfold cnt. set (M := zs (fun i => max_num_remote_jobs exact i (deadline x) * num i q) (tasks_in c info)).
  assert (EQ : zs (fun i => max_num_remote_jobs exact i (deadline x) * num i q * max_num_remote_jobs exact x (e - s)) (tasks_in c info) = max_num_remote_jobs exact x (e - s) * M).
  { unfold M. rewrite <- zs_scale. apply zs_ext. intros; lia. }
  rewrite EQ. pose proof (deadline_pos info n OK x X) as DX.
  assert (M0 : 0 <= M) by (unfold M; apply zs_nonneg; intros i I; apply in_tasks in I; pose proof (nr_nonneg info n OK i (deadline x) (proj1 I) ltac:(lia)); pose proof (num_nonneg i q); nia).
  apply (task_requests x q _ s (e - s) M X); [intros b B; apply filter_In in B; destruct B as [B H]; split; [exact B|apply (near x q b X B H)]| |lia|exact M0].
  intros j. set (l := filter (is_job (ti_id x) j) (filter (fun b => of_task (ti_id x) b && pp q b) (x_tr E q))).
  assert (L : forall b, In b l -> In b (x_tr E q) /\ jobof b = (ti_id x, j) /\ pp q b = true).
  { intros b B. unfold l in B. apply filter_In in B. destruct B as [B J]. apply filter_In in B. destruct B as [B H]. apply andb_true_iff in H. apply (is_job_iff (ti_id x, j)) in J. tauto. }
  set (W := filter (fun g => onk c g && existsb (fun b => dlb g b) l) (x_tr E q)).
  assert (LW : (length l <= length W)%nat).
  { apply (rel_inj (fun b g => dlb g b = true)); [unfold l; apply NoDup_filter, NoDup_filter, tr_nodup| |].
    - intros b B. destruct (L b B) as [B1 [_ H]]. apply pp_spec in H. destruct H as [_ [g [G [K D]]]]. exists g. split; [|exact D]. unfold W. apply filter_In. split; [exact G|]. rewrite K. cbn [andb]. apply existsb_exists. exists b. auto.
    - intros b b' g B B' G D D'. unfold W in G. apply filter_In in G. destruct G as [G _]. destruct (L b B) as [B1 [J1 H1]]. destruct (L b' B') as [B2 [J2 H2]]. destruct (pp_spec q b H1) as [GR _].
      assert (K : onk (ti_cluster x) b = true) by (apply onk_spec; exists x; split; [unfold jobof in J1; replace (cr_task b) with (ti_id x) by congruence; apply (wf_id info x (mo_wf _ _ OK) X)|reflexivity]).
      assert (K' : onk (ti_cluster x) b' = true) by (apply onk_spec; exists x; split; [unfold jobof in J2; replace (cr_task b') with (ti_id x) by congruence; apply (wf_id info x (mo_wf _ _ OK) X)|reflexivity]).
      apply (one_per_cluster q g b b' (ti_cluster x)); assumption. }
  assert (WM : Z.of_nat (length W) <= M); [|lia].
  pose proof (cover_count (fun i : taskinfo => of_task (ti_id i)) W (tasks_in c info)) as CC. apply inj_le in CC.
  2: { intros g G. unfold W in G. apply filter_In in G. destruct G as [G H]. apply andb_true_iff in H. destruct H as [K _]. apply onk_spec in K. destruct K as [u [U CU]]. destruct (wf_nth info _ u (mo_wf _ _ OK) U) as [ID IU]. exists u. split; [apply in_tasks; auto|]. unfold of_task. rewrite ID. apply Nat.eqb_refl. }
  rewrite nsum_zs in CC. etransitivity; [exact CC|]. unfold M. apply zs_le. intros i I. apply in_tasks in I. destruct I as [I CI].
  assert (FW : filter (of_task (ti_id i)) W = filter (fun g => of_task (ti_id i) g && (onk c g && existsb (fun b => dlb g b) l)) (x_tr E q)).
  { apply filter_and. }
  rewrite FW. destruct (in_dec Nat.eq_dec q (map q_res (ti_requests i))) as [R|R].
  - apply (task_requests i q _ (x_rel E (ti_id x) j) (deadline x) (num i q) I); [|intros k; apply job_requests; assumption|lia|apply num_nonneg].
    intros g G. apply filter_In in G. destruct G as [G H]. apply andb_true_iff in H. destruct H as [T H]. apply andb_true_iff in H. destruct H as [K H]. apply existsb_exists in H. destruct H as [b [B D]]. apply Nat.eqb_eq in T. split; [exact G|split; [exact T|]].
    destruct (L b B) as [B1 [J _]]. destruct (delaying q g b G B1 D) as [y [u [w [_ [U [W' [L1 L2]]]]]]]. unfold jobof in J. inversion J as [[J1 J2]]. rewrite J1 in *. rewrite J2 in *. rewrite T in *.
    rewrite (wf_id info x (mo_wf _ _ OK) X) in U. rewrite (wf_id info i (mo_wf _ _ OK) I) in W'. inversion U; inversion W'; subst u w. lia.
  - rewrite (no_request i q _ I R). cbn. pose proof (nr_nonneg info n OK i (deadline x) I ltac:(lia)). pose proof (num_nonneg i q). nia.
Qed.

(** the requests of the jobs of the window *)
Lemma window_requests q : Z.of_nat (length (filter isW (x_tr E q))) <= zs (fun i => njobs exact m (e - s) i * num i q) (tasks_in c info).
Proof.
  set (G := filter isW (x_tr E q)). pose proof (cover_count (fun i : taskinfo => of_task (ti_id i)) G (tasks_in c info)) as CC. apply inj_le in CC.
  2: { intros g H. unfold G in H. apply filter_In in H. destruct H as [_ H]. apply isW_spec in H. destruct H as [u [U [CU _]]]. destruct (wf_nth info _ u (mo_wf _ _ OK) U) as [ID IU]. exists u. split; [apply in_tasks; auto|]. unfold of_task. rewrite ID. apply Nat.eqb_refl. }
  rewrite nsum_zs in CC. etransitivity; [exact CC|]. apply zs_le. intros i I. apply in_tasks in I. destruct I as [I CI]. specialize (COUNT i I CI).
  assert (FG : filter (of_task (ti_id i)) G = filter (fun g => of_task (ti_id i) g && isW g) (x_tr E q)).
  { apply filter_and. }
  rewrite FG. pose proof (num_nonneg i q) as N0. destruct (in_dec Nat.eq_dec q (map q_res (ti_requests i))) as [R|R].
  - set (l := filter (fun g => of_task (ti_id i) g && isW g) (x_tr E q)). pose proof (cover_count (fun k : nat => is_job (ti_id i) k) l (wj i)) as C2. apply inj_le in C2.
    2: { intros g H. unfold l in H. apply filter_In in H. destruct H as [_ H]. apply andb_true_iff in H. destruct H as [T H]. apply Nat.eqb_eq in T. apply isW_spec in H. destruct H as [u [U [_ J]]]. rewrite T, (wf_id info i (mo_wf _ _ OK) I) in U. inversion U; subst u. exists (cr_job g). split; [exact J|]. unfold is_job. rewrite T, !Nat.eqb_refl. reflexivity. }
    rewrite nsum_zs in C2. etransitivity; [exact C2|]. transitivity (zs (fun _ : nat => num i q) (wj i)); [apply zs_le; intros k _; apply job_requests; assumption|].
    assert (Z1 : forall l : list nat, zs (fun _ => num i q) l = Z.of_nat (length l) * num i q) by (induction l0 as [|k l0 IH]; [reflexivity|]; rewrite zs_cons, IH; cbn [length]; lia). rewrite Z1. nia.
  - rewrite (no_request i q _ I R). cbn. nia.
Qed.

Lemma nodup_in k : NoDup (map ti_id (tasks_in k info)).
Proof. apply nodup_map_filter, (ids_nodup info n OK). Qed.
Lemma on_tasks k b x : In x (tasks_in k info) -> cr_task b = ti_id x -> onk k b = true.
Proof. intros X T. apply in_tasks in X. apply onk_spec. exists x. rewrite T. split; [apply (wf_id info x (mo_wf _ _ OK)); tauto|tauto]. Qed.

Lemma V_spin k q : zs (fun x => v_s V (ti_id x) q) (tasks_in k info) <= zs (fun i => njobs exact m (e - s) i * num i q) (tasks_in c info).
Proof.
  cbn [V v_s]. etransitivity; [apply (tasks_count (tasks_in k info) (ps q) (x_tr E q) (onk k) (nodup_in k)); intros b x; apply on_tasks|]. etransitivity; [|apply window_requests]. unfold cnt. apply inj_le.
  apply (rel_inj (fun b g => dlb g b = true)); [apply NoDup_filter, tr_nodup| |].
  - intros b B. apply filter_In in B. destruct B as [B H]. apply andb_true_iff in H. destruct H as [_ H]. apply ps_spec in H. destruct H as [_ [g [G [W D]]]]. exists g. split; [apply filter_In; auto|exact D].
  - intros b b' g B B' G D D'. apply filter_In in B, B', G. destruct B as [B H]. destruct B' as [B' H']. apply andb_true_iff in H, H'. destruct (ps_spec q b (proj2 H)) as [GR _]. apply (one_per_cluster q g b b' k); tauto.
Qed.

Lemma V_arrival k q : zs (fun x => v_a V (ti_id x) q) (tasks_in k info) <= ind V q.
Proof.
  cbn [V v_a]. etransitivity; [apply (tasks_count (tasks_in k info) (pa q) (x_tr E q) (onk k) (nodup_in k)); intros b x; apply on_tasks|]. rewrite ind_V. unfold cnt.
  assert (L : forall b, In b (filter (fun b => onk k b && pa q b) (x_tr E q)) -> In b (x_tr E q) /\ onk k b = true /\ exists a, blk = Some (q, a) /\ dlb a b = true).
  { intros b B. apply filter_In in B. destruct B as [B H]. apply andb_true_iff in H. destruct H as [K H]. apply pa_spec in H. destruct H as [a [A [D _]]]. split; [exact B|split; [exact K|exists a; auto]]. }
  set (l := filter (fun b => onk k b && pa q b) (x_tr E q)) in *. assert (ND : NoDup l) by (apply NoDup_filter, tr_nodup). pose proof BLK as X. destruct blk as [[r a]|].
  - destruct (Nat.eqb_spec r q) as [->|NE].
    + destruct X as [_ [A [GR _]]]. change 1 with (Z.of_nat (length [tt])). apply inj_le. apply (rel_inj (fun b _ => dlb a b = true)); [exact ND| |].
      * intros b B. destruct (L b B) as [_ [_ [a' [E1 D]]]]. inversion E1; subst a'. exists tt. split; [left; reflexivity|exact D].
      * intros b b' _ B B' _ D D'. destruct (L b B) as [B1 [K1 _]]. destruct (L b' B') as [B2 [K2 _]]. apply (one_per_cluster q a b b' k); assumption.
    + destruct l as [|b l']; [cbn; lia|]. destruct (L b (or_introl eq_refl)) as [_ [_ [a' [E1 _]]]]. congruence.
  - destruct l as [|b l']; [cbn; lia|]. destruct (L b (or_introl eq_refl)) as [_ [_ [a' [E1 _]]]]. discriminate.
Qed.

Lemma V_plausible : plausible info c m (e - s) V.
Proof.
  constructor.
  - intros x q. cbn [V v_s]. unfold cnt. lia.
  - intros x q. cbn [V v_a]. unfold cnt. lia.
  - intros x q X _. apply V_requests. exact X.
  - intros k q _. apply V_spin.
  - intros x q X _. apply V_task. exact X.
  - intros k q _. apply V_arrival.
  - cbn [V v_b]. pose proof BLK as B. destruct blk as [[r a]|]; [|exact I]. destruct B as [M [A [G [u [U [CU D]]]]]]. rewrite U. destruct (wf_nth info _ u (mo_wf _ _ OK) U) as [ID IU]. repeat split; auto.
    destruct (requester r a A) as [u' [_ [_ [U' R]]]]. rewrite U in U'. inversion U'; subst u'. apply in_map_iff in R. destruct R as [q [<- Q]]. rewrite (num_request info n OK u q IU Q). destruct (mo_request _ _ OK u q IU Q). lia.
Qed.

(** the length of a critical section *)
Lemma section_len r b u : In b (x_tr E r) -> global_resource info r -> nth_error info (cr_task b) = Some u -> Z.of_nat (count (fun y => (cr_start b <=? y) && (y <? cr_end b)) s (Z.to_nat (e - s))) <= len u r.
Proof.
  intros B G U. destruct (section_length info E LR r b B G) as [u' [q [U' [Q [R L]]]]]. assert (u' = u) by congruence. subst u'. destruct (wf_nth info _ u (mo_wf _ _ OK) U) as [_ IU].
  unfold len, get_request_length. rewrite <- R, (find_request u q (proj2 (proj2 (mo_wf _ _ OK) u IU)) Q). destruct (lr_times _ _ LR r b B).
  pose proof (count_window (fun y => (cr_start b <=? y) && (y <? cr_end b)) s (Z.to_nat (e - s)) (cr_start b) (cr_end b) ltac:(lia)) as CW. specialize (CW ltac:(intros x _ H2; rewrite andb_true_iff, Z.leb_le, Z.ltb_lt in H2; lia)).
  pose proof (count_le_n (fun y => (cr_start b <=? y) && (y <? cr_end b)) (Z.to_nat (cr_end b - cr_start b)) (cr_start b)). lia.
Qed.

Definition jobs : list (taskinfo * nat) := concat (map (fun u => map (pair u) (wj u)) (tasks_in c info)).
Definition delays : list (nat * creq) := concat (map (fun r => map (pair r) (filter (pp r) (x_tr E r))) (get_all_resources info)).

Lemma zs_map {A B} (f : B -> Z) (g : A -> B) l : zs f (map g l) = zs (fun a => f (g a)) l.
Proof. unfold zs. rewrite map_map. reflexivity. Qed.
Lemma zs_concat {A B} (f : B -> Z) (g : A -> list B) l : zs f (concat (map g l)) = zs (fun a => zs f (g a)) l.
Proof. induction l as [|a l IH]; [reflexivity|]. cbn [map concat]. rewrite zs_app, IH, zs_cons. reflexivity. Qed.

Lemma window_length : e - s <= zs (fun u => zs (fun k => Z.of_nat (count (works E info (ti_id u, k)) s (Z.to_nat (e - s)))) (wj u)) (tasks_in c info) + rlen info c V + blen V.
Proof.
  set (M := Z.to_nat (e - s)). set (held := fun b y => (cr_start b <=? y) && (y <? cr_end b)).
  set (f := fun z : (taskinfo * nat) + ((nat * creq) + creq) => match z with inl (u, k) => works E info (ti_id u, k) | inr (inl (_, b)) => held b | inr (inr a) => held a end).
  set (bl := match blk with Some (_, a) => [a] | None => [] end).
  assert (CC : (count (fun _ => true) s M <= nsum (fun z => count (f z) s M) (map inl jobs ++ map (fun d => inr (inl d)) delays ++ map (fun a => inr (inr a)) bl))%nat).
  { apply count_cover. intros y Y _. assert (YW : s <= y < e) by (unfold M in Y; lia). destruct (COVER y YW) as [j [S H]].
    assert (DEL : forall r g, In g (x_tr E r) -> cr_issue g <= y < cr_start g -> onk c g = true -> (isW g = true \/ blk = Some (r, g)) -> exists z, In z (map inl jobs ++ map (fun d => inr (inl d)) delays ++ map (fun a => inr (inr a)) bl) /\ f z y = true).
    { intros r g G YG K H'. assert (GR : global_resource info r) by (destruct (global_dec info r) as [X|X]; [exact X|exfalso; pose proof (lr_local _ _ LR r g G X); lia]).
      destruct (waits r g y G GR K YW YG) as [b [B [D YB]]]. exists (inr (inl (r, b))). split; [|cbn [f]; unfold held; apply andb_true_iff; split; [apply Z.leb_le|apply Z.ltb_lt]; lia].
      apply in_or_app. right. apply in_or_app. left. apply in_map_iff. exists (r, b). split; [reflexivity|]. unfold delays. apply in_concat. exists (map (pair r) (filter (pp r) (x_tr E r))). split.
      - apply in_map_iff. exists r. split; [reflexivity|]. apply in_all_resources. destruct (lr_spec _ _ LR r b B) as [x [q [X [Q [R _]]]]]. exists x, q. split; [eapply nth_error_In; exact X|auto].
      - apply in_map. apply filter_In. split; [exact B|]. unfold pp. apply orb_true_iff. destruct (ps r b) eqn:PS; [left; reflexivity|right]. destruct H' as [H'|H']; [rewrite (ps_intro r b g GR G H' D) in PS; discriminate|].
        unfold pa. rewrite H', Nat.eqb_refl, D, PS. reflexivity. }
    destruct H as [[u [U [CU [ID W]]]]|[r [a [B [J YA]]]]].
    - assert (NU : nth_error info (fst j) = Some u) by (rewrite <- ID; apply (wf_id info u (mo_wf _ _ OK) U)).
      assert (RU : runs E info j y = true) by (apply (runs_iff E info j y u NU); rewrite CU; exact S).
      destruct (spins E info j y) eqn:SP.
      + unfold spins in SP. apply existsb_exists in SP. destruct SP as [r [_ SP]]. apply existsb_exists in SP. destruct SP as [g [G SP]]. rewrite !andb_true_iff, Z.leb_le, Z.ltb_lt in SP. destruct SP as [[SP1 SP2] SP3]. apply is_job_iff in SP1.
        assert (T : cr_task g = fst j /\ cr_job g = snd j) by (rewrite <- SP1; split; reflexivity). destruct T as [T1 T2].
        apply (DEL r g G ltac:(lia)); [apply onk_spec; exists u; rewrite T1; auto|left; apply isW_spec; exists u; rewrite T1, T2; auto].
      + exists (inl (u, snd j)). split; [|cbn [f]; rewrite ID; replace (fst j, snd j) with j by (destruct j; reflexivity); unfold works; rewrite RU, SP; reflexivity].
        apply in_or_app. left. apply in_map. unfold jobs. apply in_concat. exists (map (pair u) (wj u)). split; [apply in_map_iff; exists u; split; [reflexivity|apply in_tasks; auto]|apply in_map; exact W].
    - pose proof BLK as X. rewrite B in X. destruct X as [_ [A [GR [u [U [CU _]]]]]]. destruct (Z.lt_ge_cases y (cr_start a)) as [L|L].
      + apply (DEL r a A ltac:(lia)); [apply onk_spec; exists u; auto|right; exact B].
      + exists (inr (inr a)). split; [|cbn [f]; unfold held; apply andb_true_iff; split; [apply Z.leb_le|apply Z.ltb_lt]; lia]. apply in_or_app. right. apply in_or_app. right. apply in_map_iff. exists a. split; [reflexivity|]. unfold bl. rewrite B. left. reflexivity. }
  rewrite count_true in CC. apply inj_le in CC. rewrite nsum_zs, !zs_app, !zs_map in CC. cbn [f] in CC.
  assert (C1 : zs (fun a : taskinfo * nat => Z.of_nat (count (let (u, k) := a in works E info (ti_id u, k)) s M)) jobs = zs (fun u => zs (fun k => Z.of_nat (count (works E info (ti_id u, k)) s M)) (wj u)) (tasks_in c info)).
  { unfold jobs. rewrite zs_concat. apply zs_ext. intros u _. rewrite zs_map. reflexivity. }
  rewrite C1 in CC.
  assert (C2 : zs (fun a : nat * creq => Z.of_nat (count (let (_, b) := a in held b) s M)) delays <= rlen info c V).
  { unfold delays. rewrite zs_concat. unfold rlen. rewrite zs_swap. apply zs_le. intros r R. rewrite zs_map. rewrite (zs_ext _ (fun x => len x r * cnt (fun b => of_task (ti_id x) b && pp r b) (x_tr E r))) by (intros x _; rewrite v_sum; reflexivity).
    apply (by_task (fun x => len x r) (tasks_not_in c info) (fun b => Z.of_nat (count (held b) s M)) (pp r) (x_tr E r)); [intros; apply len_nonneg|].
    intros b B H. destruct (pp_spec r b H) as [GR [g [G [_ D]]]]. destruct (dlb_spec g b D) as [NK _]. destruct (requester r b B) as [x [X [ID [NX _]]]]. exists x. split; [|split; [congruence|apply section_len; assumption]].
    apply in_tasks_not. split; [exact X|]. intros CX. assert (K : onk c b = true) by (apply onk_spec; exists x; auto). congruence. }
  assert (C3 : zs (fun a : creq => Z.of_nat (count (held a) s M)) bl <= blen V).
  { unfold bl, blen. cbn [V v_b]. pose proof BLK as B. destruct blk as [[r a]|]; [|cbn; lia]. destruct B as [_ [A [G [u [U _]]]]]. rewrite U, zs_cons. cbn [zs map Base.zsum]. pose proof (section_len r a u A G U) as SL. fold M in SL. fold (held a) in SL. unfold zs, Base.zsum. cbn [map fold_right]. lia. }
  lia.
Qed.
End Window.
