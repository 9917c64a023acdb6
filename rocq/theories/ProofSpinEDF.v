(** EDF with the SRP and non-preemptive FIFO spin locks: one critical section of
    a job with a later deadline delays a busy interval. *)
From Coq Require Import NArith ZArith List Bool Lia Arith.
From Verif Require Import ModelNative ModelQPA ModelLocking ModelMSRP SpecLocking SpecSpinFP SpecSpinEDF ProofLocking ProofSpin ProofSpinCount ProofSpinFP ProofMSRP ProofMSRPTest ProofLockRules.
Import ListNotations.
Open Scope Z_scope.

Section Srp.
Variables (info : list taskinfo) (E : execution) (before : nat * nat -> nat * nat -> Prop) (n : nat).
Hypothesis EE : edf_execution info E before.
Hypothesis OK : msrp_ok info n.
Variable c : nat.
Let LR := ee_locks _ _ _ EE.

Lemma on_cpu_runs j t : on_cpu info c j -> (runs E info j t = true <-> x_sched E c t = Some j).
Proof. intros [k [K C]]. rewrite (runs_iff E info j t k K), C. reflexivity. Qed.

Lemma sched_on_cpu j t : x_sched E c t = Some j -> on_cpu info c j /\ pending E j t.
Proof. intros S. destruct (lr_sched _ _ LR _ _ _ S) as [P [k [K C]]]. split; [exists k; auto|exact P]. Qed.

Lemma first_run j s : started info E j s -> exists u, u < s /\ runs E info j u = true /\ ~ started info E j u.
Proof.
  intros [v [V R]]. assert (X : forall m v, v < s -> runs E info j v = true -> v - x_rel E (fst j) (snd j) < Z.of_nat m -> exists u, u < s /\ runs E info j u = true /\ ~ started info E j u).
  { induction m as [|m IH]; intros w Hw Rw Hm; [pose proof (runs_pending info E LR j w Rw) as P; unfold pending in P; lia|].
    destruct (existsb (fun i => runs E info j (x_rel E (fst j) (snd j) + Z.of_nat i)) (seq 0 (Z.to_nat (w - x_rel E (fst j) (snd j))))) eqn:X.
    - apply existsb_exists in X. destruct X as [i [I RI]]. apply in_seq in I. apply (IH (x_rel E (fst j) (snd j) + Z.of_nat i)); [lia|exact RI|lia].
    - exists w. split; [exact Hw|split; [exact Rw|]]. intros [y [Y RY]]. assert (F : existsb (fun i => runs E info j (x_rel E (fst j) (snd j) + Z.of_nat i)) (seq 0 (Z.to_nat (w - x_rel E (fst j) (snd j)))) = true); [|congruence].
      pose proof (runs_pending info E LR j y RY) as P. unfold pending in P. apply existsb_exists. exists (Z.to_nat (y - x_rel E (fst j) (snd j))). split; [apply in_seq; lia|]. replace (x_rel E (fst j) (snd j) + Z.of_nat (Z.to_nat (y - x_rel E (fst j) (snd j)))) with y by lia. exact RY. }
  apply (X (S (Z.to_nat (v - x_rel E (fst j) (snd j)))) v V R). lia.
Qed.

Lemma not_global_at_issue r a : In a (x_tr E r) -> ~ in_global info E (jobof a) (cr_issue a).
Proof.
  intros A [r' [a' [_ [A' [J T]]]]]. destruct (lr_times _ _ LR r a A) as [_ T2]. destruct (lr_one_request info E LR r' r a' a (cr_issue a) A' A J ltac:(lia) ltac:(lia)) as [_ ->]. lia.
Qed.

(** a job that runs outside global sections precedes the jobs that have started *)
Lemma precedes j x t : x_sched E c t = Some j -> ~ in_global info E j t -> on_cpu info c x -> pending E x t -> started info E x t -> x <> j -> before j x.
Proof.
  intros S NG X P ST N. destruct (ee_srp _ _ _ EE c t j S) as [G|[[[_ [_ MU]] _]|[_ [MS _]]]]; [contradiction|apply MU; assumption|apply MS; assumption].
Qed.

(** an unstarted job that runs is the most urgent one and not blocked *)
Lemma starts j t : x_sched E c t = Some j -> ~ started info E j t -> most_urgent info E before c t j /\ ~ ceiling_blocked info E c j t.
Proof.
  intros S N. destruct (ee_srp _ _ _ EE c t j S) as [[r [a [_ [A [J T]]]]]|[[MU [ST|NB]]|[ST _]]]; try contradiction; [|split; assumption].
  exfalso. apply N. exists (cr_issue a). split; [lia|]. rewrite <- J. apply (lr_issue _ _ LR r a A).
Qed.

Lemma req_on_cpu r a j : In a (x_tr E r) -> jobof a = j -> on_cpu info c j -> x_sched E c (cr_issue a) = Some j.
Proof. intros A J C. apply on_cpu_runs; [exact C|]. rewrite <- J. apply (lr_issue _ _ LR r a A). Qed.

Lemma req_pending r a t : In a (x_tr E r) -> cr_issue a <= t < cr_end a -> pending E (jobof a) t.
Proof. intros A T. destruct (lr_job _ _ LR r a A) as [J1 J2]. unfold pending, jobof. cbn [fst snd]. lia. Qed.

(** while a local section is in progress, jobs with levels up to the ceiling do not run *)
Lemma excluded r a p w j1 k1 : In a (x_tr E r) -> ~ global_resource info r -> on_cpu info c (jobof a) -> is_ceiling info r p ->
  nth_error info (fst j1) = Some k1 -> (p <= ti_prio k1)%N -> on_cpu info c j1 -> j1 <> jobof a -> cr_issue a < w < cr_end a -> x_sched E c w = Some j1 -> False.
Proof.
  intros A NG CA CP K1 P1 C1 N W R. pose proof (proj2 (on_cpu_runs j1 w C1) R) as R1. set (s := cr_issue a) in *.
  assert (RS : x_sched E c s = Some (jobof a)) by (apply (req_on_cpu r a _ A eq_refl CA)).
  destruct (first_run j1 (w + 1)) as [u [U [RU NU]]]; [exists w; split; [lia|exact R1]|].
  apply (on_cpu_runs j1 u C1) in RU.
  destruct (Z.lt_trichotomy u s) as [L|[->|L]]; [|congruence|].
  - (* started before the section *)
    assert (PS : pending E j1 s). { pose proof (proj2 (sched_on_cpu _ _ RU)) as P1'. pose proof (proj2 (sched_on_cpu _ _ R)) as P2. unfold pending in *. lia. }
    assert (B1 : before (jobof a) j1). { apply (precedes _ _ s RS (not_global_at_issue r a A) C1 PS); [|exact N]. exists u. split; [exact L|apply (on_cpu_runs j1 u C1); exact RU]. }
    assert (ST : forall w', s < w' -> started info E (jobof a) w') by (intros w' L'; exists s; split; [exact L'|apply (on_cpu_runs _ s CA); exact RS]).
    assert (X : forall w', s < w' < cr_end a -> x_sched E c w' = Some j1 -> ~ in_global info E j1 w' -> False).
    { intros w' W' R' G'. apply (ur_asym _ _ _ (ee_order _ _ _ EE) _ _ B1). apply (precedes _ _ w' R' G' CA (req_pending r a w' A ltac:(fold s; lia)) (ST w' ltac:(lia))). congruence. }
    apply (X w W R). intros [r' [g [G [IG [JG TG]]]]].
    assert (L2 : s < cr_issue g).
    { destruct (Z.lt_ge_cases s (cr_issue g)) as [L2|L2]; [exact L2|]. exfalso. pose proof (lr_nonpreemptive _ _ LR r' g s IG G ltac:(lia)) as RG. rewrite JG in RG. apply (on_cpu_runs j1 s C1) in RG. congruence. }
    apply (X (cr_issue g)); [lia|apply (req_on_cpu r' g j1 IG JG C1)|]. rewrite <- JG. apply (not_global_at_issue r' g IG).
  - destruct (starts j1 u RU NU) as [_ NB]. apply NB. exists r, a, p, k1. split; [exact NG|split; [exact A|split; [congruence|split; [exact CA|split; [fold s; lia|split; [exact CP|split; [exact K1|exact P1]]]]]]].
Qed.

Section Window.
Variables (t0 d : Z).
Hypothesis QUIET : forall x, on_cpu info c x -> due info E x <= d -> x_rel E (fst x) (snd x) < t0 -> x_comp E (fst x) (snd x) <= t0.
Hypothesis BUSY : forall t, t0 <= t < d -> exists x, on_cpu info c x /\ pending E x t /\ due info E x <= d.

Lemma on_cpu_due j k : nth_error info (fst j) = Some k -> due info E j = x_rel E (fst j) (snd j) + Z.of_N (ti_deadline k).
Proof. intros K. unfold due. rewrite K. reflexivity. Qed.

Lemma not_most_urgent t j : t0 <= t < d -> d < due info E j -> on_cpu info c j -> ~ most_urgent info E before c t j.
Proof.
  intros T D [k [K _]] [_ [_ MU]]. destruct (BUSY t T) as [x [C [P DX]]]. assert (N : x <> j) by (intros ->; lia). specialize (MU x C P N). destruct C as [u [U _]].
  apply (ur_asym _ _ _ (ee_order _ _ _ EE) _ _ MU). apply (ur_edf _ _ _ (ee_order _ _ _ EE) x j u k U K). lia.
Qed.

Lemma before_due x y : on_cpu info c x -> on_cpu info c y -> before x y -> due info E x <= due info E y.
Proof.
  intros [k [K _]] [u [U _]] B. destruct (Z.le_gt_cases (due info E x) (due info E y)) as [L|L]; [exact L|]. exfalso. apply (ur_asym _ _ _ (ee_order _ _ _ EE) _ _ B). apply (ur_edf _ _ _ (ee_order _ _ _ EE) y x u k U K L).
Qed.

Lemma most_urgent_due t h : t0 <= t < d -> most_urgent info E before c t h -> due info E h <= d.
Proof.
  intros T M. destruct (Z.le_gt_cases (due info E h) d) as [L|L]; [exact L|]. exfalso. exact (not_most_urgent t h T ltac:(lia) (proj1 M) M).
Qed.

Lemma in_window x t : t0 <= t -> on_cpu info c x -> pending E x t -> due info E x <= d -> t0 <= x_rel E (fst x) (snd x).
Proof. intros T C P D. destruct (Z.le_gt_cases t0 (x_rel E (fst x) (snd x))) as [L|L]; [exact L|]. specialize (QUIET x C D L). unfold pending in P. lia. Qed.

(** what blocks the most urgent job is a section of the job that runs *)
Lemma own_section t j : t0 <= t < d -> x_sched E c t = Some j -> d < due info E j -> ~ in_global info E j t ->
  exists r a p u, ~ global_resource info r /\ In a (x_tr E r) /\ jobof a = j /\ cr_issue a < t < cr_end a /\ is_ceiling info r p /\
    In u info /\ ti_cluster u = c /\ (p <= ti_prio u)%N /\ Z.of_N (ti_deadline u) <= d - t0.
Proof.
  intros T S D NG. destruct (sched_on_cpu j t S) as [CJ PJ]. destruct (ee_srp _ _ _ EE c t j S) as [G|[[MU _]|[ST [MS [h [MU [NS CB]]]]]]]; [contradiction|exfalso; exact (not_most_urgent t j T D CJ MU)|].
  destruct CB as [r [a [p [u [NGr [A [NJ [CA [TA [CP [U PU]]]]]]]]]]]. pose proof (most_urgent_due t h T MU) as DH. destruct MU as [CH [PH MU]].
  pose proof (in_window h t ltac:(lia) CH PH DH) as RH. assert (CU : ti_cluster u = c) by (destruct CH as [u' [U' C']]; congruence).
  exists r, a, p, u. split; [exact NGr|split; [exact A|split; [|split; [exact TA|split; [exact CP|split; [eapply nth_error_In; exact U|split; [exact CU|split; [exact PU|rewrite (on_cpu_due h u U) in DH; lia]]]]]]]].
  destruct (Nat.eq_dec (fst (jobof a)) (fst j)) as [E1|E1]; [destruct (Nat.eq_dec (snd (jobof a)) (snd j)) as [E2|E2]; [destruct (jobof a), j; cbn in *; congruence|]|].
  all: exfalso; assert (N : jobof a <> j) by (intros X; rewrite X in *; contradiction); clear E1; try clear E2.
  all: set (s := cr_issue a) in *; assert (RS : x_sched E c s = Some (jobof a)) by (apply (req_on_cpu r a _ A eq_refl CA)).
  all: assert (BJ : before j (jobof a)) by (apply MS; [exact CA|apply (req_pending r a t A); fold s; lia|exists s; split; [lia|apply (on_cpu_runs _ s CA); exact RS]|exact N]).
  all: destruct CJ as [kj [KJ CKJ]]; assert (CJ : on_cpu info c j) by (exists kj; auto).
  all: destruct (first_run j t ST) as [v [V [RV NV]]]; apply (on_cpu_runs j v CJ) in RV; destruct (sched_on_cpu j v RV) as [_ PV].
  all: destruct (Z.lt_trichotomy v s) as [L|[L|L]]; [|subst v; congruence|].
  1,3: apply (ur_asym _ _ _ (ee_order _ _ _ EE) _ _ BJ); apply (precedes _ _ s RS (not_global_at_issue r a A) CJ); [unfold pending in *; lia|exists v; split; [exact L|apply (on_cpu_runs j v CJ); exact RV]|congruence].
  all: destruct (starts j v RV NV) as [[_ [_ MV]] NB]; apply NB; exists r, a, p, kj; (split; [exact NGr|split; [exact A|split; [exact N|split; [exact CA|split; [fold s; lia|split; [exact CP|split; [exact KJ|]]]]]]]).
  all: assert (NH : h <> j) by (intros ->; lia).
  all: assert (RHV : v < x_rel E (fst h) (snd h)) by (destruct (Z.lt_ge_cases v (x_rel E (fst h) (snd h))) as [Y|Y]; [exact Y|]; exfalso;
    assert (BH : before j h) by (apply MV; [exact CH|unfold pending in *; lia|exact NH]); pose proof (before_due _ _ CJ CH BH); lia).
  all: rewrite (on_cpu_due j kj KJ) in D; rewrite (on_cpu_due h u U) in DH; unfold pending in PV.
  all: pose proof (mo_levels _ _ OK u kj ltac:(eapply nth_error_In; exact U) ltac:(eapply nth_error_In; exact KJ) ltac:(lia)); lia.
Qed.

(** the request through which a job with a later deadline executes *)
Definition intrudes (r : nat) (a : creq) : Prop :=
  In a (x_tr E r) /\ on_cpu info c (jobof a) /\ cr_issue a < t0 < cr_end a /\ d < due info E (jobof a) /\
  (global_resource info r \/ (~ global_resource info r /\ exists p u, is_ceiling info r p /\ In u info /\ ti_cluster u = c /\ (p <= ti_prio u)%N /\ Z.of_N (ti_deadline u) <= d - t0)).

Lemma intrusion t j : t0 <= t < d -> x_sched E c t = Some j -> d < due info E j -> (exists r a, jobof a = j /\ t < cr_end a /\ intrudes r a) .
Proof.
  intros T S D. destruct (sched_on_cpu j t S) as [CJ PJ].
  (* a section cannot be entered in the window *)
  assert (NO : forall r a, In a (x_tr E r) -> jobof a = j -> t0 <= cr_issue a < d -> False).
  { intros r a A J TA. assert (NG : ~ in_global info E j (cr_issue a)) by (rewrite <- J; apply (not_global_at_issue r a A)).
    destruct (own_section (cr_issue a) j TA (req_on_cpu r a j A J CJ) D NG) as [r' [a' [p [u [_ [A' [J' [T' _]]]]]]]]. destruct (lr_times _ _ LR r a A) as [_ T2].
    destruct (lr_one_request info E LR r' r a' a (cr_issue a) A' A ltac:(congruence) ltac:(lia) ltac:(lia)) as [_ ->]. lia. }
  assert (DEC : in_global info E j t \/ ~ in_global info E j t).
  { destruct (ee_srp _ _ _ EE c t j S) as [G|[[MU _]|[ST [MS [h [MU [NS CB]]]]]]]; [left; exact G|exfalso; exact (not_most_urgent t j T D CJ MU)|].
    right. intros [r [a [G [A [J TA]]]]].
    (* covered by the same argument at the issue *)
    destruct (Z.lt_ge_cases (cr_issue a) t0) as [L|L]; [|exact (NO r a A J ltac:(lia))].
    destruct CB as [r' [a' [p [u [NGr [A' [NJ [CA [TA' [CP [U PU]]]]]]]]]]]. pose proof (most_urgent_due t h T MU) as DH.
    assert (CU : ti_cluster u = c) by (destruct (proj1 MU) as [u' [U' C']]; congruence).
    pose proof (in_window h t ltac:(lia) (proj1 MU) (proj1 (proj2 MU)) DH) as RH. rewrite (on_cpu_due h u U) in DH.
    destruct CJ as [kj [KJ CKJ]]. assert (DJ : Z.of_N (ti_deadline kj) > d - t0).
    { rewrite (on_cpu_due j kj KJ) in D. destruct (lr_job _ _ LR r a A) as [J1 _]. rewrite <- J in D. unfold jobof in D. cbn [fst snd] in D. lia. }
    pose proof (mo_levels _ _ OK u kj ltac:(eapply nth_error_In; exact U) ltac:(eapply nth_error_In; exact KJ) ltac:(lia)) as PL.
    destruct (Nat.eq_dec (fst (jobof a')) (fst j)) as [E1|E1]; [destruct (Nat.eq_dec (snd (jobof a')) (snd j)) as [E2|E2]|].
    - assert (JJ : jobof a' = jobof a) by (rewrite J; destruct (jobof a'), j; cbn in *; congruence). destruct (lr_one_request info E LR r' r a' a t A' A JJ ltac:(lia) ltac:(lia)) as [-> _]. contradiction.
    - apply (excluded r' a' p t j kj A' NGr CA CP KJ ltac:(lia) ltac:(exists kj; auto) ltac:(congruence) TA' S).
    - apply (excluded r' a' p t j kj A' NGr CA CP KJ ltac:(lia) ltac:(exists kj; auto) ltac:(congruence) TA' S). }
  destruct DEC as [G|G].
  - destruct G as [r [a [G [A [J TA]]]]]. exists r, a. split; [exact J|split; [lia|]]. unfold intrudes. rewrite J. repeat split; auto; try lia.
    destruct (Z.lt_ge_cases (cr_issue a) t0) as [L|L]; [exact L|]. exfalso. exact (NO r a A J ltac:(lia)).
  - destruct (own_section t j T S D G) as [r [a [p [u [NGr [A [J [TA [CP [U [CU [PU DU]]]]]]]]]]]]. exists r, a. split; [exact J|split; [lia|]]. unfold intrudes. rewrite J. repeat split; auto; try lia.
    + destruct (Z.lt_ge_cases (cr_issue a) t0) as [L|L]; [exact L|]. exfalso. exact (NO r a A J ltac:(lia)).
    + right. split; [exact NGr|]. exists p, u. auto.
Qed.

Lemma intruder_deadline r a k : intrudes r a -> nth_error info (cr_task a) = Some k -> d - t0 < Z.of_N (ti_deadline k).
Proof.
  intros [A [_ [T [D _]]]] K. destruct (lr_job _ _ LR r a A) as [J _]. rewrite (on_cpu_due (jobof a) k K) in D. unfold jobof in D. cbn [fst snd] in D. lia.
Qed.

Lemma job_eq_dec (x y : nat * nat) : {x = y} + {x <> y}.
Proof. decide equality; apply Nat.eq_dec. Qed.

Lemma local_excludes r1 a1 r2 a2 : intrudes r1 a1 -> intrudes r2 a2 -> ~ global_resource info r2 -> jobof a1 <> jobof a2 -> cr_issue a2 < cr_issue a1 -> False.
Proof.
  intros I1 I2 NG N L. pose proof I2 as [A2 [C2 [T2 [D2 X2]]]]. pose proof I1 as [A1 [C1 [T1 [D1 X1]]]]. destruct X2 as [G|[_ [p [u [CP [U [CU [PU DU]]]]]]]]; [contradiction|].
  destruct C1 as [k1 [K1 CK]]. pose proof (intruder_deadline r1 a1 k1 I1 K1) as D. pose proof (mo_levels _ _ OK u k1 U ltac:(eapply nth_error_In; exact K1) ltac:(lia)) as PL.
  assert (C1 : on_cpu info c (jobof a1)) by (exists k1; auto).
  apply (excluded r2 a2 p (cr_issue a1) (jobof a1) k1 A2 NG C2 CP K1 ltac:(lia) C1 N ltac:(lia)). apply (req_on_cpu r1 a1 _ A1 eq_refl C1).
Qed.

Lemma one_intruder r1 a1 r2 a2 : intrudes r1 a1 -> intrudes r2 a2 -> r1 = r2 /\ a1 = a2.
Proof.
  intros I1 I2. pose proof I1 as [A1 [C1 [T1 [D1 X1]]]]. pose proof I2 as [A2 [C2 [T2 [D2 X2]]]].
  destruct (job_eq_dec (jobof a1) (jobof a2)) as [J|J]; [apply (lr_one_request info E LR r1 r2 a1 a2 t0 A1 A2 J); lia|]. exfalso.
  assert (GL : forall r a r' a', intrudes r a -> intrudes r' a' -> global_resource info r -> jobof a <> jobof a' -> cr_issue a <= cr_issue a' -> False).
  { intros r a r' a' [A [C [T _]]] [A' [C' [T' _]]] G J' L. apply J'. pose proof (lr_nonpreemptive _ _ LR r a (cr_issue a') A G ltac:(lia)) as R. apply (on_cpu_runs _ _ C) in R. pose proof (req_on_cpu r' a' _ A' eq_refl C'). congruence. }
  assert (GG : forall r a r' a', intrudes r a -> intrudes r' a' -> global_resource info r -> global_resource info r' -> jobof a <> jobof a' -> False).
  { intros r a r' a' [A [C [T _]]] [A' [C' [T' _]]] G G' J'. apply J'. pose proof (lr_nonpreemptive _ _ LR r a t0 A G ltac:(lia)) as R. apply (on_cpu_runs _ _ C) in R. pose proof (lr_nonpreemptive _ _ LR r' a' t0 A' G' ltac:(lia)) as R'. apply (on_cpu_runs _ _ C') in R'. congruence. }
  assert (NE : cr_issue a1 <> cr_issue a2). { intros X. apply J. pose proof (req_on_cpu r1 a1 _ A1 eq_refl C1). pose proof (req_on_cpu r2 a2 _ A2 eq_refl C2). rewrite X in *. congruence. }
  destruct (global_dec info r1) as [G1|G1], (global_dec info r2) as [G2|G2].
  - exact (GG _ _ _ _ I1 I2 G1 G2 J).
  - destruct (Z.lt_ge_cases (cr_issue a1) (cr_issue a2)) as [L|L]; [exact (GL _ _ _ _ I1 I2 G1 J ltac:(lia))|exact (local_excludes _ _ _ _ I1 I2 G2 J ltac:(lia))].
  - destruct (Z.lt_ge_cases (cr_issue a1) (cr_issue a2)) as [L|L]; [apply (local_excludes _ _ _ _ I2 I1 G1); [congruence|lia]|apply (GL _ _ _ _ I2 I1 G2); [congruence|lia]].
  - destruct (Z.lt_ge_cases (cr_issue a1) (cr_issue a2)) as [L|L]; [apply (local_excludes _ _ _ _ I2 I1 G1); [congruence|lia]|exact (local_excludes _ _ _ _ I1 I2 G2 J ltac:(lia))].
Qed.

Definition intr (t : Z) : bool := match x_sched E c t with Some j => d <? due info E j | None => false end.

Lemma intr_bound : t0 <= d -> let m := Z.to_nat (d - t0) in
  count intr t0 m = O \/ exists v, arrival_blocker info n c (Z.to_N (d - t0)) v /\ (N.of_nat (count intr t0 m) <= v)%N.
Proof.
  intros LE m. destruct (Nat.eq_dec (count intr t0 m) 0) as [Z0|NZ]; [left; exact Z0|right].
  destruct (count_pos intr m t0 ltac:(lia)) as [t [T I]]. unfold intr in I. destruct (x_sched E c t) as [j|] eqn:S; [|discriminate]. apply Z.ltb_lt in I.
  assert (TW : t0 <= t < d) by (unfold m in T; lia). destruct (intrusion t j TW S I) as [r [a [J [TE IN]]]].
  assert (W : forall x, t0 <= x < t0 + Z.of_nat m -> intr x = true -> runs E info (jobof a) x = true /\ cr_issue a <= x < cr_end a).
  { intros x X Y. unfold intr in Y. destruct (x_sched E c x) as [j'|] eqn:S'; [|discriminate]. apply Z.ltb_lt in Y. assert (XW : t0 <= x < d) by (unfold m in X; lia).
    destruct (intrusion x j' XW S' Y) as [r' [a' [J' [TE' IN']]]]. destruct (one_intruder _ _ _ _ IN IN') as [-> ->]. destruct IN' as [A' [C' [T' _]]]. split; [apply (on_cpu_runs _ x C'); congruence|lia]. }
  pose proof IN as [A [CA [TA [DA X]]]]. destruct (lr_times _ _ LR r a A) as [TA1 TA2].
  assert (CNT : (count intr t0 m <= count (runs E info (jobof a)) (cr_issue a) (Z.to_nat (cr_end a - cr_issue a)))%nat).
  { transitivity (count (fun x => intr x && runs E info (jobof a) x) t0 m); [apply count_le; intros x X1 X2; rewrite X2, (proj1 (W x X1 X2)); reflexivity|].
    etransitivity; [apply (count_window _ t0 m (cr_issue a) (cr_end a)); [lia|]|apply count_le; intros x _ X1; apply andb_true_iff in X1; apply X1].
    intros x X1 X2. apply andb_true_iff in X2. apply (W x X1), X2. }
  destruct X as [G|[NG [p [u [CP [U [CU [PU DU]]]]]]]].
  - destruct (section_length info E LR r a A G) as [k [q [K [Q [R LQ]]]]]. destruct CA as [k' [K' CK]]. cbn [fst jobof] in K'. assert (k' = k) by congruence. subst k'.
    destruct (BUSY t TW) as [h [CH [PH DH]]]. pose proof (in_window h t ltac:(lia) CH PH DH) as RH. destruct CH as [u [U CU]]. rewrite (on_cpu_due h u U) in DH.
    exists (fifo_wait info n c (q_res q) + q_len q)%N. split.
    + exists k, q, u. pose proof (intruder_deadline r a k IN K). repeat split; auto; try lia; [eapply nth_error_In; exact K|eapply nth_error_In; exact U|left; rewrite R; auto].
    + pose proof (fifo_wait_bound info E LR (ee_fifo _ _ _ EE) n (mo_cpu _ _ OK) r a k A G K) as FW. rewrite CK in FW. rewrite R.
      pose proof (count_le_n (runs E info (jobof a)) (Z.to_nat (cr_end a - cr_issue a)) (cr_issue a)). lia.
  - destruct (lr_spec _ _ LR r a A) as [k [q [K [Q [R LQ]]]]]. rewrite (lr_local _ _ LR r a A NG) in LQ. destruct CA as [k' [K' CK]]. cbn [fst jobof] in K'. assert (k' = k) by congruence. subst k'.
    exists (q_len q). split; [|lia]. exists k, q, u. pose proof (intruder_deadline r a k IN K). repeat split; auto; try lia; [eapply nth_error_In; exact K|].
    right. rewrite R. repeat split; [exact NG|]. destruct CP as [[y [Y1 Y2]] _]. exists y. split; [exact Y1|lia].
Qed.
End Window.
End Srp.
