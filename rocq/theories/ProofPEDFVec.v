(** Numbers of jobs, check points, and the demands that an interval can carry. *)
From Coq Require Import NArith ZArith QArith Qround List Bool Lia Arith.
From Verif Require Base.
From Verif Require Import ModelLocking ModelLP ModelLPSpin ModelPEDF SpecLocking SpecSpinFP SpecSpinEDF ProofMSRPTest.
Import ListNotations.
Open Scope Z_scope.

(** ** Sums *)

Definition zs {A} (f : A -> Z) (l : list A) : Z := Base.zsum (map f l).

Lemma zs_cons {A} (f : A -> Z) x l : zs f (x :: l) = f x + zs f l. Proof. reflexivity. Qed.
Lemma zs_app {A} (f : A -> Z) l r : zs f (l ++ r) = zs f l + zs f r. Proof. unfold zs. rewrite map_app. apply Base.zsum_app. Qed.
Lemma zs_le {A} (f g : A -> Z) l : (forall x, In x l -> f x <= g x) -> zs f l <= zs g l.
Proof. induction l as [|x l IH]; intros H; [reflexivity|]. rewrite !zs_cons. specialize (IH (fun y Y => H y (or_intror Y))). specialize (H x (or_introl eq_refl)). lia. Qed.
Lemma zs_ext {A} (f g : A -> Z) l : (forall x, In x l -> f x = g x) -> zs f l = zs g l.
Proof. induction l as [|x l IH]; intros H; [reflexivity|]. rewrite !zs_cons, (H x (or_introl eq_refl)), IH; [reflexivity|]. intros y Y. apply H. right. exact Y. Qed.
Lemma zs_plus {A} (f g : A -> Z) l : zs (fun x => f x + g x) l = zs f l + zs g l.
Proof. induction l as [|x l IH]; [reflexivity|]. rewrite !zs_cons, IH. lia. Qed.
Lemma zs_scale {A} (f : A -> Z) k l : zs (fun x => k * f x) l = k * zs f l.
Proof. induction l as [|x l IH]; [cbn; lia|]. rewrite !zs_cons, IH. lia. Qed.
Lemma zs_zero {A} (l : list A) : zs (fun _ => 0) l = 0.
Proof. induction l as [|x l IH]; [reflexivity|]. rewrite zs_cons, IH. reflexivity. Qed.
Lemma zs_nonneg {A} (f : A -> Z) l : (forall x, In x l -> 0 <= f x) -> 0 <= zs f l.
Proof. intros H. rewrite <- (zs_zero l). apply zs_le. exact H. Qed.
(** one term grows by [k] *)
Lemma zs_more {A} (f g : A -> Z) l x k : (forall y, In y l -> f y <= g y) -> In x l -> f x + k <= g x -> zs f l + k <= zs g l.
Proof.
  induction l as [|y l IH]; intros H I K; [destruct I|]. rewrite !zs_cons. pose proof (H y (or_introl eq_refl)). destruct I as [->|I].
  - pose proof (zs_le f g l (fun z Z => H z (or_intror Z))). lia.
  - specialize (IH (fun z Z => H z (or_intror Z)) I K). lia.
Qed.
Lemma zs_in {A} (f : A -> Z) l x : (forall y, In y l -> 0 <= f y) -> In x l -> f x <= zs f l.
Proof. intros H I. pose proof (zs_more (fun _ => 0) f l x (f x) H I ltac:(cbn; lia)) as X. rewrite zs_zero in X. lia. Qed.

Lemma fold_sum {A} (f : A -> Z) l : forall s, fold_left (fun s t => s + f t) l s = s + zs f l.
Proof. induction l as [|x l IH]; intros s; cbn [fold_left]; [cbn; lia|]. rewrite IH, zs_cons. lia. Qed.
Lemma sum_tasks_zs f l : sum_tasks f l = zs f l.
Proof. unfold sum_tasks. rewrite fold_sum. lia. Qed.

(** ** Numbers of jobs *)

Lemma div_ceil_spec a b : 0 < b -> forall k, k < div_ceil a b <-> k * b < a.
Proof.
  intros B k. unfold div_ceil. pose proof (Z.div_mod a b ltac:(lia)) as E. pose proof (Z.mod_pos_bound a b B) as M. set (d := a / b) in *. set (r := a mod b) in *. clearbody d r.
  destruct (Z.eqb_spec r 0) as [R|R]; subst a; split; intros H; nia.
Qed.
Lemma div_ceil_mono a a' b : 0 < b -> a <= a' -> div_ceil a b <= div_ceil a' b.
Proof.
  intros B L. destruct (Z.le_gt_cases (div_ceil a b) (div_ceil a' b)) as [X|X]; [exact X|]. apply (div_ceil_spec a b B) in X. assert (Y : div_ceil a' b < div_ceil a' b) by (apply (div_ceil_spec a' b B); lia). lia.
Qed.

Section Tasks.
Variables (info : list taskinfo) (n : nat).
Hypothesis OK : msrp_ok info n.

Lemma period_pos t : In t info -> 0 < period t.
Proof. intros T. destruct (proj2 (mo_wf _ _ OK) t T) as [P _]. unfold period. lia. Qed.
Lemma deadline_pos t : In t info -> 1 <= deadline t.
Proof. intros T. destruct (mo_deadline _ _ OK t T) as [P _]. unfold deadline. lia. Qed.
Lemma cost_pos t : In t info -> 1 <= cost t.
Proof. intros T. pose proof (mo_cost _ _ OK t T). unfold cost. lia. Qed.

Notation nr := (max_num_remote_jobs exact).
Notation nj := (PDC_max_num_local_jobs exact).

Lemma nr_mono t x y : In t info -> x <= y -> nr t x <= nr t y.
Proof. intros T L. unfold max_num_remote_jobs, exact. apply div_ceil_mono; [apply period_pos; exact T|lia]. Qed.
Lemma nr_nonneg t x : In t info -> 0 <= x -> 1 <= nr t x.
Proof. intros T L. unfold max_num_remote_jobs, exact. pose proof (deadline_pos t T). assert (X : 0 < div_ceil (x + deadline t) (period t)) by (apply (div_ceil_spec _ _ (period_pos t T)); lia). lia. Qed.
Lemma nj_alt t x : nj t x = Z.max 0 ((x + period t - deadline t) / period t).
Proof. unfold PDC_max_num_local_jobs, exact. destruct (Z.ltb_spec 0 ((x + period t - deadline t) / period t)); lia. Qed.
Lemma nj_nonneg t x : 0 <= nj t x. Proof. rewrite nj_alt. lia. Qed.
Lemma nj_mono t x y : In t info -> x <= y -> nj t x <= nj t y.
Proof. intros T L. rewrite !nj_alt. pose proof (Z.div_le_mono (x + period t - deadline t) (y + period t - deadline t) (period t) (period_pos t T) ltac:(lia)). lia. Qed.
Lemma nj_zero t x : In t info -> x < deadline t -> nj t x = 0.
Proof. intros T L. rewrite nj_alt. pose proof (period_pos t T). assert ((x + period t - deadline t) / period t < 1) by (apply Z.div_lt_upper_bound; lia). lia. Qed.
Lemma nj_one t x : In t info -> deadline t <= x -> 1 <= nj t x.
Proof. intros T L. rewrite nj_alt. pose proof (period_pos t T). assert (1 <= (x + period t - deadline t) / period t) by (apply Z.div_le_lower_bound; lia). lia. Qed.
Lemma nj_steps t x : In t info -> deadline t <= x -> nj t x = (x - deadline t) / period t + 1.
Proof. intros T L. pose proof (nj_one t x T L). rewrite nj_alt in *. pose proof (period_pos t T). replace (x + period t - deadline t) with (x - deadline t + 1 * period t) in * by lia. rewrite Z.div_add in * by lia. lia. Qed.

Lemma dbf_sum c x : DBF exact info c x = zs (fun t => nj t x * cost t) (tasks_in c info).
Proof. rewrite <- sum_tasks_zs. reflexivity. Qed.
Lemma ac_sum c x : arrival_curve exact info c x = zs (fun t => AC_max_num_local_jobs t x * cost t) (tasks_in c info).
Proof. rewrite <- sum_tasks_zs. reflexivity. Qed.

Lemma in_tasks c t : In t (tasks_in c info) <-> In t info /\ ti_cluster t = c.
Proof. unfold tasks_in. rewrite filter_In, Nat.eqb_eq. tauto. Qed.
Lemma in_tasks_not c t : In t (tasks_not_in c info) <-> In t info /\ ti_cluster t <> c.
Proof. unfold tasks_not_in. rewrite filter_In, negb_true_iff, Nat.eqb_neq. tauto. Qed.

(** ** The smallest deadline *)

Lemma max_spec l : forall m, fold_left (fun m t => if deadline t <? m then m else deadline t) l m >= m /\ forall t, In t l -> deadline t <= fold_left (fun m t => if deadline t <? m then m else deadline t) l m.
Proof.
  induction l as [|x l IH]; intros m; cbn [fold_left]; [split; [lia|intros t []]|]. destruct (IH (if deadline x <? m then m else deadline x)) as [A B]. destruct (Z.ltb_spec (deadline x) m) as [L|L]; (split; [lia|intros t [<-|T]; [lia|apply B; exact T]]).
Qed.
Lemma min_spec l : forall m, let r := fold_left (fun m t => if deadline t <? m then deadline t else m) l m in r <= m /\ (forall t, In t l -> r <= deadline t) /\ (r = m \/ exists t, In t l /\ deadline t = r).
Proof.
  induction l as [|x l IH]; intros m r; cbn [fold_left] in r; [split; [unfold r; lia|split; [intros t []|left; reflexivity]]|]. destruct (IH (if deadline x <? m then deadline x else m)) as [A [B C]]. fold r in A, B, C.
  destruct (Z.ltb_spec (deadline x) m) as [L|L].
  - split; [lia|split; [intros t [<-|T]; [lia|apply B; exact T]|]]. right. destruct C as [C|[t [C1 C2]]]; [exists x; split; [left; reflexivity|lia]|exists t; split; [right; exact C1|exact C2]].
  - split; [lia|split; [intros t [<-|T]; [lia|apply B; exact T]|]]. destruct C as [C|[t [C1 C2]]]; [left; lia|right; exists t; split; [right; exact C1|exact C2]].
Qed.
Lemma min_deadline_le c t : In t info -> ti_cluster t = c -> min_deadline info c <= deadline t.
Proof. intros T C. unfold min_deadline. apply (min_spec (tasks_in c info) (max_deadline info c)). apply in_tasks. auto. Qed.
Lemma min_deadline_in c t0 : In t0 info -> ti_cluster t0 = c -> exists t, In t info /\ ti_cluster t = c /\ deadline t = min_deadline info c.
Proof.
  intros T C. assert (I : In t0 (tasks_in c info)) by (apply in_tasks; auto). destruct (min_spec (tasks_in c info) (max_deadline info c)) as [A [B D]]. fold (min_deadline info c) in A, B, D.
  destruct D as [D|[t [D1 D2]]]; [|exists t; apply in_tasks in D1; tauto]. exists t0. split; [exact T|split; [exact C|]].
  pose proof (proj2 (max_spec (tasks_in c info) 0) t0 I) as M. fold (max_deadline info c) in M. specialize (B t0 I). lia.
Qed.

(** ** Check points *)

Definition candidate (t : taskinfo) (T d : Z) : Z := if d =? T then d - period t else d.
Lemma consider_max t T d last : consider exact t T d last = Z.max last (candidate t T d).
Proof. unfold consider, candidate, exact. destruct (Z.ltb_spec last (if d =? T then d - period t else d)); lia. Qed.

Lemma step_ge c T last t : last <= check_point_step exact c T last t.
Proof.
  unfold check_point_step. destruct (Nat.eqb (ti_cluster t) c).
  - destruct (deadline t <? T); [|lia]. rewrite !consider_max. lia.
  - destruct (1 <? _); [|lia]. rewrite consider_max. lia.
Qed.
Lemma fold_ge c T l : forall last, last <= fold_left (check_point_step exact c T) l last.
Proof. induction l as [|t l IH]; intros last; cbn [fold_left]; [lia|]. pose proof (step_ge c T last t). specialize (IH (check_point_step exact c T last t)). lia. Qed.
Lemma fold_reach c T l t d : In t l -> (forall last, d <= check_point_step exact c T last t) -> forall last, d <= fold_left (check_point_step exact c T) l last.
Proof. intros I H. induction l as [|x l IH]; [destruct I|]. intros last. cbn [fold_left]. destruct I as [->|I]; [pose proof (fold_ge c T l (check_point_step exact c T last t)); specialize (H last); lia|apply IH; exact I]. Qed.

Lemma lcp_nonneg c T : 0 <= last_check_point_before exact info c T.
Proof. apply fold_ge. Qed.

(** the step of the number of jobs of a local task before [T] *)
Lemma lcp_local c T t : In t info -> ti_cluster t = c -> deadline t < T -> deadline t + (T - 1 - deadline t) / period t * period t <= last_check_point_before exact info c T.
Proof.
  intros I C L. apply (fold_reach c T info t _ I). intros last. unfold check_point_step. rewrite C, Nat.eqb_refl. destruct (Z.ltb_spec (deadline t) T); [|lia].
  rewrite !consider_max. unfold exact. enough (deadline t + (T - 1 - deadline t) / period t * period t <= candidate t T ((T - deadline t) / period t * period t + deadline t)) by lia.
  pose proof (period_pos t I) as P. unfold candidate.
  pose proof (Z.div_mod (T - deadline t) (period t) ltac:(lia)) as E1. pose proof (Z.mod_pos_bound (T - deadline t) (period t) P) as M1.
  pose proof (Z.div_mod (T - 1 - deadline t) (period t) ltac:(lia)) as E2. pose proof (Z.mod_pos_bound (T - 1 - deadline t) (period t) P) as M2.
  set (k := (T - deadline t) / period t) in *. set (k' := (T - 1 - deadline t) / period t) in *. clearbody k k'. destruct (Z.eqb_spec (k * period t + deadline t) T) as [EQ|NE].
  - assert (k' <= k - 1) by nia. nia.
  - assert (k' <= k) by nia. nia.
Qed.

Lemma nj_before c T t x : In t info -> ti_cluster t = c -> x < T -> nj t x <= nj t (last_check_point_before exact info c T).
Proof.
  intros I C X. destruct (Z.lt_ge_cases (deadline t) T) as [L|L]; [|rewrite (nj_zero t x I ltac:(lia)); apply nj_nonneg].
  pose proof (lcp_local c T t I C L) as LC. pose proof (period_pos t I) as P. set (p := deadline t + (T - 1 - deadline t) / period t * period t) in LC.
  transitivity (nj t (T - 1)); [apply nj_mono; [exact I|lia]|]. transitivity (nj t p); [|apply nj_mono; assumption].
  assert (0 <= (T - 1 - deadline t) / period t) by (apply Z.div_pos; lia).
  rewrite (nj_steps t (T - 1) I ltac:(lia)), (nj_steps t p I ltac:(unfold p; nia)). unfold p. replace (deadline t + (T - 1 - deadline t) / period t * period t - deadline t) with ((T - 1 - deadline t) / period t * period t) by lia. rewrite Z.div_mul by lia. lia.
Qed.

Lemma nr_before c T t x : In t info -> ti_cluster t <> c -> x < T -> nr t x <= nr t (last_check_point_before exact info c T).
Proof.
  intros I C X. pose proof (period_pos t I) as P. pose proof (lcp_nonneg c T) as NN. set (p := last_check_point_before exact info c T) in *. transitivity (nr t (T - 1)); [apply nr_mono; [exact I|lia]|].
  set (m := div_ceil (T + deadline t) (period t)). destruct (Z.lt_ge_cases 1 m) as [L|L].
  - assert (Q : candidate t T ((m - 1) * period t - deadline t + 1) <= p).
    { apply (fold_reach c T info t _ I). intros last. unfold check_point_step. destruct (Nat.eqb_spec (ti_cluster t) c); [contradiction|]. unfold exact. fold m. destruct (Z.ltb_spec 1 m); [|lia]. rewrite consider_max. lia. }
    unfold candidate in Q. assert (LE : (m - 1) * period t - deadline t + 1 <= T) by (pose proof (proj1 (div_ceil_spec (T + deadline t) (period t) P (m - 1)) ltac:(fold m; lia)); lia).
    destruct (Z.eqb_spec ((m - 1) * period t - deadline t + 1) T) as [EQ|NE].
    + transitivity (m - 1).
      * assert (Y : ~ m - 1 < nr t (T - 1)); [|lia]. intros Y. apply (div_ceil_spec _ _ P) in Y. unfold exact in Y. lia.
      * assert (Y : m - 2 < nr t p); [|lia]. apply (div_ceil_spec _ _ P). unfold exact. lia.
    + transitivity m.
      * apply div_ceil_mono; [exact P|unfold exact; lia].
      * assert (Y : m - 1 < nr t p); [|lia]. apply (div_ceil_spec _ _ P). unfold exact. lia.
  - transitivity 1; [|apply nr_nonneg; assumption]. transitivity m; [|exact L]. apply div_ceil_mono; [exact P|unfold exact; lia].
Qed.

Lemma lcp_min c T : (exists t, In t info /\ ti_cluster t = c) -> min_deadline info c < T -> min_deadline info c <= last_check_point_before exact info c T.
Proof.
  intros [t0 [I0 C0]] L. destruct (min_deadline_in c t0 I0 C0) as [t [I [C D]]]. rewrite <- D in *. pose proof (lcp_local c T t I C L) as X. pose proof (period_pos t I).
  assert (0 <= (T - 1 - deadline t) / period t) by (apply Z.div_pos; lia). nia.
Qed.

(** ** Vectors: how many requests of remote tasks delay local ones *)

Record vec := Vec { v_s : nat -> nat -> Z; v_a : nat -> nat -> Z; v_b : option (taskinfo * nat) }.
Definition len (t : taskinfo) (q : nat) : Z := Z.of_N (get_request_length t q).
Definition ind (v : vec) (q : nat) : Z := match v_b v with Some (_, r) => if Nat.eqb r q then 1 else 0 | None => 0 end.
Definition blen (v : vec) : Z := match v_b v with Some (i, q) => len i q | None => 0 end.
Definition rlen (c : nat) (v : vec) : Z :=
  zs (fun x => zs (fun q => len x q * (v_s v (ti_id x) q + v_a v (ti_id x) q)) (get_all_resources info)) (tasks_not_in c info).

Record plausible (c : nat) (m : mode) (t : Z) (v : vec) : Prop := {
  pl_s : forall x q, 0 <= v_s v x q;
  pl_a : forall x q, 0 <= v_a v x q;
  pl_requests : forall x q, In x info -> ti_cluster x <> c -> v_s v (ti_id x) q + v_a v (ti_id x) q <= nr x t * num x q;
  pl_spin : forall k q, k <> c -> zs (fun x => v_s v (ti_id x) q) (tasks_in k info) <= zs (fun i => njobs exact m t i * num i q) (tasks_in c info);
  pl_task : forall x q, In x info -> ti_cluster x <> c ->
    v_s v (ti_id x) q + v_a v (ti_id x) q <= zs (fun i => nr i (deadline x) * num i q * nr x t) (tasks_in c info);
  pl_arrival : forall k q, k <> c -> zs (fun x => v_a v (ti_id x) q) (tasks_in k info) <= ind v q;
  pl_block : match v_b v with
    | None => True
    | Some (i, q) => m = PDC_MODE /\ In i info /\ ti_cluster i = c /\ t < deadline i /\ global_resource info q /\ 1 <= num i q
    end }.

Definition dem (c : nat) (t w : Z) : Prop := exists v, plausible c PDC_MODE t v /\ w = DBF exact info c t + rlen c v + blen v.

Lemma num_nonneg t q : 0 <= num t q. Proof. unfold num. lia. Qed.
Lemma len_nonneg t q : 0 <= len t q. Proof. unfold len. lia. Qed.
Lemma len_cost t q : In t info -> len t q <= cost t.
Proof.
  intros T. unfold len, get_request_length, cost. destruct (find _ _) as [r|] eqn:F; [|lia]. apply find_some in F. destruct F as [F _]. destruct (mo_request _ _ OK t r T F). lia.
Qed.


Lemma dem_mono c t t' w : 0 <= t -> t <= t' -> dem c t w -> exists w', w <= w' /\ dem c t' w'.
Proof.
  intros T0 L [v [V ->]]. destruct V as [V1 V2 V3 V4 V5 V6 V7].
  assert (DB : DBF exact info c t <= DBF exact info c t').
  { rewrite !dbf_sum. apply zs_le. intros i I. apply in_tasks in I. pose proof (nj_mono i t t' (proj1 I) L). pose proof (cost_pos i (proj1 I)). nia. }
  assert (P3 : forall x q, In x info -> nr x t * num x q <= nr x t' * num x q) by (intros x q I; pose proof (nr_mono x t t' I L); pose proof (num_nonneg x q); nia).
  assert (P4 : forall q i, In i (tasks_in c info) -> nj i t * num i q <= nj i t' * num i q) by (intros q i I; apply in_tasks in I; pose proof (nj_mono i t t' (proj1 I) L); pose proof (num_nonneg i q); nia).
  assert (P5 : forall x q, In x info -> zs (fun i => nr i (deadline x) * num i q * nr x t) (tasks_in c info) <= zs (fun i => nr i (deadline x) * num i q * nr x t') (tasks_in c info)).
  { intros x q I. apply zs_le. intros i Ii. apply in_tasks in Ii. pose proof (nr_mono x t t' I L). pose proof (num_nonneg i q). pose proof (nr_nonneg i (deadline x) (proj1 Ii) ltac:(pose proof (deadline_pos x I); lia)).
    apply Z.mul_le_mono_nonneg_l; [nia|assumption]. }
  assert (SAME : (match v_b v with None => True | Some (i, q) => t' < deadline i end) -> exists w', DBF exact info c t + rlen c v + blen v <= w' /\ dem c t' w').
  { intros B. exists (DBF exact info c t' + rlen c v + blen v). split; [lia|]. exists v. split; [|reflexivity]. constructor; auto.
    - intros x q I C. specialize (V3 x q I C). specialize (P3 x q I). lia.
    - intros k q K. specialize (V4 k q K). cbn [njobs] in *. pose proof (zs_le _ _ _ (P4 q)). lia.
    - intros x q I C. specialize (V5 x q I C). specialize (P5 x q I). lia.
    - destruct (v_b v) as [[i q]|]; [|exact I]. intuition. }
  destruct (v_b v) as [[i q0]|] eqn:VB; [|apply SAME; exact I]. destruct (Z.lt_ge_cases t' (deadline i)) as [G|G]; [apply SAME; exact G|]. clear SAME.
  destruct V7 as [_ [Ii [Ci [Di [Gq Nq]]]]]. assert (IT : In i (tasks_in c info)) by (apply in_tasks; auto).
  set (v' := Vec (fun x q => v_s v x q + v_a v x q) (fun _ _ => 0) None).
  exists (DBF exact info c t' + rlen c v' + blen v'). split.
  - assert (R : rlen c v' = rlen c v) by (unfold rlen, v'; cbn [v_s v_a]; apply zs_ext; intros x X; apply zs_ext; intros q Q; lia). rewrite R. unfold blen. rewrite VB. cbn [v' v_b].
    pose proof (len_cost i q0 Ii) as LC. enough (DBF exact info c t + cost i <= DBF exact info c t') by lia. rewrite !dbf_sum. apply zs_more with (x := i).
    + intros y Y. apply in_tasks in Y. pose proof (nj_mono y t t' (proj1 Y) L). pose proof (cost_pos y (proj1 Y)). nia.
    + exact IT.
    + rewrite (nj_zero i t Ii Di). pose proof (nj_one i t' Ii G). pose proof (cost_pos i Ii). nia.
  - exists v'. split; [|reflexivity]. constructor; cbn [v' v_s v_a v_b].
    + intros x q. specialize (V1 x q). specialize (V2 x q). lia.
    + lia.
    + intros x q I C. specialize (V3 x q I C). specialize (P3 x q I). lia.
    + intros k q K. cbn [njobs] in *. rewrite zs_plus. specialize (V4 k q K). specialize (V6 k q K). unfold ind in V6. rewrite VB in V6. destruct (Nat.eqb_spec q0 q) as [EQ|NE]; [subst q|pose proof (zs_le _ _ _ (P4 q)); lia].
      enough (zs (fun i => nj i t * num i q0) (tasks_in c info) + 1 <= zs (fun i => nj i t' * num i q0) (tasks_in c info)) by lia. apply zs_more with (x := i); [apply P4|exact IT|].
      rewrite (nj_zero i t Ii Di). pose proof (nj_one i t' Ii G). nia.
    + intros x q I C. specialize (V5 x q I C). specialize (P5 x q I). lia.
    + intros k q K. unfold ind. cbn [v' v_b]. rewrite zs_zero. lia.
    + exact I.
Qed.

Lemma dem_step c T t w : (exists t, In t info /\ ti_cluster t = c) -> min_deadline info c < T -> last_check_point_before exact info c T <= t -> t < T -> dem c t w ->
  min_deadline info c <= last_check_point_before exact info c T /\ exists w', w <= w' /\ dem c (last_check_point_before exact info c T) w'.
Proof.
  intros NE M L X [v [V ->]]. split; [apply lcp_min; assumption|]. set (p := last_check_point_before exact info c T) in *. exists (DBF exact info c p + rlen c v + blen v). split.
  - enough (DBF exact info c t <= DBF exact info c p) by lia. rewrite !dbf_sum. apply zs_le. intros i I. apply in_tasks in I. pose proof (nj_before c T i t (proj1 I) (proj2 I) X) as Y. fold p in Y. pose proof (cost_pos i (proj1 I)). nia.
  - exists v. split; [|reflexivity]. destruct V as [V1 V2 V3 V4 V5 V6 V7]. constructor; auto.
    + intros x q I C. specialize (V3 x q I C). pose proof (nr_before c T x t I C X) as Y. fold p in Y. pose proof (num_nonneg x q). nia.
    + intros k q K. specialize (V4 k q K). cbn [njobs] in *. etransitivity; [exact V4|]. apply zs_le. intros i I. apply in_tasks in I. pose proof (nj_before c T i t (proj1 I) (proj2 I) X) as Y. fold p in Y. pose proof (num_nonneg i q). nia.
    + intros x q I C. specialize (V5 x q I C). etransitivity; [exact V5|]. apply zs_le. intros i Ii. apply in_tasks in Ii. pose proof (nr_before c T x t I C X) as Y. fold p in Y. pose proof (num_nonneg i q).
      pose proof (nr_nonneg i (deadline x) (proj1 Ii) ltac:(pose proof (deadline_pos x I); lia)). apply Z.mul_le_mono_nonneg_l; [nia|assumption].
    + destruct (v_b v) as [[i q]|]; [|exact I]. intuition.
Qed.
End Tasks.
