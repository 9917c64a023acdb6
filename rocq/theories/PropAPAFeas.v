(** Property theorem C59: feasibility under arbitrary processor affinities
    (native/src/apa_feas.cpp). *)
From Coq Require Import NArith ZArith QArith List Bool Lia Arith Lqa.
From Verif Require Import Base SpecUni SpecQPA ModelNative ModelLP SpecLP ModelAPAFeas SpecAPAFeas ProofLP ProofColor ProofQPA ProofAPAFeas ProofAPASched ProofAPAAccept ProofAPAReject.
Import ListNotations.
Open Scope Z_scope.

(** Tasks and affinities the API can represent: positive parameters; sets of
    processors below [m], which with the task numbers fits 32 bits. *)
Record representable (m : nat) (ts : ntaskset) (afs : affinities) : Prop := {
  rp_tasks : forall t, In t ts -> 1 <= n_wcet t /\ 1 <= n_period t /\ 1 <= n_deadline t /\ 0 <= n_susp t;
  rp_sets : forall af, In af afs -> NoDup af;
  rp_cpus : forall af c, In af afs -> In c af -> (c < m)%nat;
  rp_words : (N.of_nat m <= 2 ^ 32)%N /\ (N.of_nat (length ts) <= 2 ^ 32)%N }.

(** The solver answers the program built for these inputs correctly; nothing
    is assumed about other programs. *)
Definition correct (solve : lprog nat -> option (nat -> Q)) (ts : ntaskset) (afs : affinities) : Prop :=
  solves (apa_columns ts afs) (solve (apa_columns ts afs)).

Notation call := apa_implicit_deadline_feasible.

Lemma call_cases solve ts afs : call solve ts afs <> Aborted ->
  (forall t, In t ts -> n_deadline t = n_period t) /\ (forall t, In t ts -> n_susp t <= 0) /\ length ts = length afs.
Proof.
  unfold apa_implicit_deadline_feasible. destruct (has_only_implicit ts) eqn:A; cbn [negb]; [|congruence]. destruct (has_no_suspending ts) eqn:B; cbn [negb]; [|congruence].
  destruct (Nat.eqb_spec (length ts) (length afs)) as [C|C]; cbn [negb]; [|congruence]. intros _. split; [|split; [|exact C]].
  - intros t Ht. unfold has_only_implicit in A. rewrite forallb_forall in A. specialize (A t Ht). apply Z.eqb_eq in A. exact A.
  - intros t Ht. unfold has_no_suspending in B. rewrite forallb_forall in B. specialize (B t Ht). apply negb_true_iff, Z.ltb_ge in B. exact B.
Qed.

Lemma call_solution solve ts afs al : call solve ts afs = Solution al ->
  (forall t, In t ts -> 1 <= n_wcet t /\ n_wcet t + n_susp t <= n_period t) /\ exists x, solve (apa_columns ts afs) = Some x /\
  al = read_solution (fun v => x (fraction (fvar_mapper (lp_vars (apa_lp ts afs))) v)) O afs [].
Proof.
  unfold apa_implicit_deadline_feasible. destruct (negb _); [discriminate|]. destruct (negb _); [discriminate|]. destruct (negb _); [discriminate|].
  destruct (has_only_feasible ts) eqn:F; [|discriminate]. destruct (solve (apa_columns ts afs)) as [x|]; [|discriminate]. intros E. injection E as <-. split; [|eauto].
  intros t Ht. unfold has_only_feasible in F. rewrite forallb_forall in F. specialize (F t Ht). unfold n_feasible in F. rewrite !andb_true_iff, !Z.leb_le, Z.ltb_lt in F. lia.
Qed.

(** Accepted: with a fine enough clock, every legal sporadic job sequence can
    be scheduled on the allowed processors without a deadline miss. *)
Theorem C59_accept_feasible : forall m ts afs solve al, representable m ts afs -> (forall af, In af afs -> af <> []) ->
  correct solve ts afs -> call solve ts afs = Solution al ->
  exists K, (1 <= K)%nat /\ forall s, legal_edf (map etask_of ts) s -> exists sc, avalid m afs (refine K s) sc /\ ameets m K (map etask_of ts) s sc.
Proof.
  intros m ts afs solve al R NE SV C. destruct (call_cases solve ts afs) as [IMP [NS HL]]; [congruence|]. destruct (call_solution solve ts afs al C) as [FE [x [EX _]]].
  unfold correct in SV. rewrite EX in SV. cbn [solves] in SV. apply columns_feasible in SV.
  destruct (fun a b c d => accept_plan ts afs m _ HL a b c d SV) as [K [P [HK [PP [RW [AF _]]]]]].
  - intros t Ht. destruct (rp_tasks _ _ _ R t Ht) as [A [B [D E]]]. specialize (FE t Ht). lia.
  - apply (rp_sets _ _ _ R).
  - exact NE.
  - apply (rp_cpus _ _ _ R).
  - exists K. split; [exact HK|]. intros s LG. exists (plan_sched K m P s).
    assert (WF : forall i e, nth_error (map etask_of ts) i = Some e -> exists t, nth_error ts i = Some t /\ e = etask_of t).
    { intros i e H. rewrite nth_error_map in H. destruct (nth_error ts i) as [t|]; [|discriminate]. injection H as <-. eauto. }
    assert (W : forall i e, nth_error (map etask_of ts) i = Some e -> 1 <= e_period e /\ e_deadline e = e_period e /\ 0 <= e_cost e).
    { intros i e H. destruct (WF i e H) as [t [Ht ->]]. apply nth_error_In in Ht. destruct (rp_tasks _ _ _ R t Ht) as [A [B _]]. specialize (IMP t Ht). cbn. lia. }
    split.
    + apply (plan_valid K (length ts) m P (map etask_of ts) afs s HK PP); [rewrite map_length; reflexivity|exact AF|exact LG].
    + apply (plan_meets K (length ts) m P (map etask_of ts) s HK ltac:(rewrite map_length; reflexivity) W); [|exact LG]. intros i e H. destruct (WF i e H) as [t [Ht ->]]. apply RW. exact Ht.
Qed.
Print Assumptions C59_accept_feasible.

(** Rejected: there is a legal job sequence that no schedule on the allowed
    processors, whatever its granularity, can serve in time. *)
Theorem C59_reject_infeasible : forall m ts afs solve, representable m ts afs ->
  correct solve ts afs -> call solve ts afs = NoSolution ->
  exists s, legal_edf (map etask_of ts) s /\ forall K sc, (1 <= K)%nat -> avalid m afs (refine K s) sc -> ~ ameets m K (map etask_of ts) s sc.
Proof.
  intros m ts afs solve R SV C. destruct (call_cases solve ts afs) as [IMP [NS HL]]; [congruence|].
  exists (periodic ts). split; [apply periodic_legal; intros t Ht; destruct (rp_tasks _ _ _ R t Ht); tauto|].
  intros K sc HK V MEET. unfold apa_implicit_deadline_feasible in C. destruct (negb _); [discriminate|]. destruct (negb _); [discriminate|]. destruct (negb _); [discriminate|].
  destruct (has_only_feasible ts) eqn:F.
  - unfold correct in SV. destruct (solve (apa_columns ts afs)) as [x|]; [discriminate|]. cbn [solves] in SV.
    assert (G : Forall good ts) by (apply Forall_forall; intros t Ht; destruct (rp_tasks _ _ _ R t Ht) as [A [B [D E]]]; unfold good; lia).
    pose proof (reject_feasible ts afs m K sc HK G IMP HL (rp_sets _ _ _ R) V MEET) as FS.
    destruct (fun a => columns_complete ts afs _ a FS) as [x Hx]; [|exact (SV x Hx)].
    intros v Hv. apply (apa_vars ts afs v HL) in Hv. destruct Hv as [H1 H2]. apply all_cpus_in in H2. destruct H2 as [af [H2 H3]]. pose proof (rp_cpus _ _ _ R af _ H2 H3) as H4. pose proof (rp_words _ _ _ R) as [W1 W2].
    unfold fv_ok. clear - H1 H4 W1 W2. remember (2 ^ 32)%N as M eqn:EM. clear EM. lia.
  - assert (X : exists i t, nth_error ts i = Some t /\ n_feasible t = false).
    { unfold has_only_feasible in F. clear - F. induction ts as [|t r IH]; [discriminate|]. cbn in F. destruct (n_feasible t) eqn:E; [|exists O, t; auto]. cbn in F. destruct (IH F) as [i [u [H1 H2]]]. exists (S i), u. auto. }
    destruct X as [i [t [Ht X]]]. pose proof (nth_error_In _ _ Ht) as It. destruct (rp_tasks _ _ _ R t It) as [A [B [D E]]]. specialize (IMP t It). specialize (NS t It).
    eapply (over_period ts afs m K sc i t HK Ht B IMP); [|exact V|exact MEET]. unfold n_feasible in X. rewrite !andb_false_iff, !Z.leb_gt, Z.ltb_ge in X. lia.
Qed.
Print Assumptions C59_reject_infeasible.

(** Hence the verdict is exact whenever every task may run somewhere. *)
Definition afeasible (m : nat) (ts : list etask) (afs : list (list nat)) : Prop :=
  exists K, (1 <= K)%nat /\ forall s, legal_edf ts s -> exists sc, avalid m afs (refine K s) sc /\ ameets m K ts s sc.

Theorem C59_exact : forall m ts afs solve, representable m ts afs -> (forall af, In af afs -> af <> []) ->
  correct solve ts afs -> call solve ts afs <> Aborted ->
  ((exists al, call solve ts afs = Solution al) <-> afeasible m (map etask_of ts) afs).
Proof.
  intros m ts afs solve R NE SV NA. split.
  - intros [al C]. exact (C59_accept_feasible m ts afs solve al R NE SV C).
  - intros [K [HK H]]. destruct (call solve ts afs) as [| |al] eqn:C; [congruence| |eauto]. exfalso.
    destruct (C59_reject_infeasible m ts afs solve R SV C) as [s [L N]]. destruct (H s L) as [sc [V M]]. exact (N K sc HK V M).
Qed.
Print Assumptions C59_exact.

(** ** The returned fractions *)
Lemma grow_length {A} (d : A) f : forall i l, length (set_grow d l i f) = Nat.max (length l) (S i).
Proof. induction i as [|i IH]; intros [|a l]; cbn; [reflexivity|lia|rewrite IH; cbn; lia|rewrite IH; lia]. Qed.

Lemma grow_nth {A} (d : A) f : forall i l k, nth k (set_grow d l i f) d = if Nat.eqb k i then f (nth i l d) else nth k l d.
Proof.
  induction i as [|i IH]; intros [|a l] k; cbn.
  - destruct k as [|[|k]]; reflexivity.
  - destruct k; reflexivity.
  - destruct k as [|k]; [reflexivity|]. cbn. rewrite IH. destruct i; destruct k; reflexivity.
  - destruct k as [|k]; [reflexivity|]. cbn. apply IH.
Qed.

Lemma get_fraction_nth al i c : get_fraction al i c = nth c (nth i al []) 0%Q.
Proof.
  unfold get_fraction. destruct (Nat.leb_spec (length al) i) as [H|H]; [rewrite (nth_overflow al) by exact H; destruct c; reflexivity|].
  destruct (Nat.leb_spec (length (nth i al [])) c) as [G|G]; [symmetry; apply nth_overflow; exact G|reflexivity].
Qed.

Lemma get_set al i c q k d : get_fraction (set_fraction al i c q) k d = if Nat.eqb k i && Nat.eqb d c then q else get_fraction al k d.
Proof.
  rewrite !get_fraction_nth. unfold set_fraction. rewrite grow_nth. destruct (Nat.eqb_spec k i) as [->|N]; cbn [andb]; [|reflexivity]. rewrite grow_nth. reflexivity.
Qed.

Lemma read_row value i af : forall al k d, get_fraction (fold_left (fun al cpu => set_fraction al i cpu (value (i, cpu))) af al) k d =
  if Nat.eqb k i && existsb (Nat.eqb d) af then value (i, d) else get_fraction al k d.
Proof.
  induction af as [|c r IH]; intros al k d; cbn [fold_left existsb]; [rewrite andb_false_r; reflexivity|]. rewrite IH, get_set.
  destruct (Nat.eqb_spec k i) as [->|N]; cbn [andb]; [|reflexivity]. destruct (Nat.eqb_spec d c) as [->|M]; cbn [orb]; [destruct (existsb _ r); reflexivity|reflexivity].
Qed.

Lemma read_spec value afs : forall i al k d, get_fraction (read_solution value i afs al) k d =
  if Nat.leb i k && existsb (Nat.eqb d) (nth (k - i) afs []) then value (k, d) else get_fraction al k d.
Proof.
  induction afs as [|af r IH]; intros i al k d; cbn [read_solution].
  - destruct (k - i)%nat; cbn; rewrite andb_false_r; reflexivity.
  - rewrite IH, read_row. destruct (Nat.leb_spec i k) as [L|L]; cbn [andb].
    + destruct (Nat.eqb_spec k i) as [->|N].
      * rewrite Nat.sub_diag. destruct (Nat.leb_spec (S i) i); [lia|]. reflexivity.
      * destruct (Nat.leb_spec (S i) k); [|lia]. replace (k - i)%nat with (S (k - S i)) by lia. reflexivity.
    + destruct (Nat.leb_spec (S i) k); [lia|]. destruct (Nat.eqb_spec k i); [lia|]. reflexivity.
Qed.

(** The fractions of a task are non-negative, zero outside its affinity and
    add up to one; no processor is allocated beyond its capacity. *)
Theorem C59_fractions : forall m ts afs solve al, representable m ts afs ->
  correct solve ts afs -> call solve ts afs = Solution al ->
  (forall i c, (0 <= get_fraction al i c <= 1)%Q) /\
  (forall i af, nth_error afs i = Some af -> (forall c, ~ In c af -> (get_fraction al i c == 0)%Q) /\ (af <> [] -> (rsum (get_fraction al i) af == 1)%Q)) /\
  (forall c, (rsum (fun i => n_util (nth i ts dtask) * get_fraction al i c) (seq 0 (length ts)) <= 1)%Q).
Proof.
  intros m ts afs solve al R SV C. destruct (call_cases solve ts afs) as [_ [_ HL]]; [congruence|]. destruct (call_solution solve ts afs al C) as [FE [x [EX AL]]].
  unfold correct in SV. rewrite EX in SV. cbn [solves] in SV. apply columns_feasible in SV. set (y := fun v => x (fraction (fvar_mapper (lp_vars (apa_lp ts afs))) v)) in *.
  assert (GF : forall i c, get_fraction al i c = if existsb (Nat.eqb c) (nth i afs []) then y (i, c) else 0%Q).
  { intros i c. rewrite AL, read_spec, Nat.sub_0_r. cbn [Nat.leb andb]. destruct (existsb _ _); [reflexivity|]. rewrite get_fraction_nth. destruct i, c; reflexivity. }
  apply apa_lp_meaning in SV. destruct SV as [F1 [F2 F3]].
  assert (RG : forall i c, (0 <= get_fraction al i c <= 1)%Q) by (intros i c; rewrite GF; destruct (existsb _ _); [apply F1|lra]).
  split; [exact RG|]. split.
  - intros i af Haf. pose proof (nth_error_nth afs i [] Haf) as NAF. split.
    + intros c Hc. rewrite GF, NAF. destruct (existsb (Nat.eqb c) af) eqn:E; [|reflexivity]. exfalso. apply Hc. apply existsb_exists in E. destruct E as [d [E1 E2]]. apply Nat.eqb_eq in E2. subst d. exact E1.
    + intros NE. rewrite <- (F2 i af Haf NE), eval_service. apply rsum_ext. intros c Hc. rewrite GF, NAF.
      replace (existsb (Nat.eqb c) af) with true; [reflexivity|]. symmetry. apply existsb_exists. exists c. split; [exact Hc|apply Nat.eqb_refl].
  - intros c.
    assert (UP : forall i, (0 <= n_util (nth i ts dtask))%Q).
    { apply (util_nonneg ts afs HL). intros t Ht. specialize (FE t Ht). destruct (rp_tasks _ _ _ R t Ht) as [_ [_ [_ S]]]. lia. }
    destruct (in_dec Nat.eq_dec c (get_all_cpus afs)) as [I|NI].
    + destruct ts as [|t0 r0] eqn:ETS; [cbn; lra|]. rewrite <- ETS in *. eapply Qle_trans; [|apply (F3 c I); rewrite ETS; discriminate].
      assert (G : forall r i, (forall k, (k < length r)%nat -> nth k r dtask = nth (i + k) ts dtask) ->
        (rsum (fun k => n_util (nth k ts dtask) * get_fraction al k c) (seq i (length r)) <= evaluate y (cpu_capacity i r c))%Q).
      { induction r as [|t r IH]; intros i HN; [cbn; lra|]. cbn [length seq cpu_capacity].
        assert (A := HN O ltac:(cbn; lia)). cbn in A. rewrite Nat.add_0_r in A.
        assert (B := IH (S i)). assert (D : (rsum (fun k => n_util (nth k ts dtask) * get_fraction al k c) (seq (S i) (length r)) <= evaluate y (cpu_capacity (S i) r c))%Q).
        { apply B. intros k Hk. replace (S i + k)%nat with (i + S k)%nat by lia. apply (HN (S k)). cbn. lia. }
        unfold evaluate, rsum in *. cbn [fold_right fst snd]. apply Qplus_le_compat; [|exact D]. rewrite A. rewrite !(Qmult_comm (n_util _)).
        apply Qmult_le_compat_r; [|apply UP]. rewrite GF. destruct (existsb _ _); [apply Qle_refl|apply F1]. }
      apply (G ts O). intros; reflexivity.
    + rewrite (rsum_ext _ _ (fun i => (0 * 0)%Q)); [rewrite rsum_mul; lra|]. intros i _. rewrite GF. destruct (existsb (Nat.eqb c) (nth i afs [])) eqn:E; [|ring]. exfalso. apply NI.
      apply existsb_exists in E. destruct E as [d [E1 E2]]. apply Nat.eqb_eq in E2. subst d. apply all_cpus_in. exists (nth i afs []). split; [|exact E1].
      destruct (nth_in_or_default i afs []) as [X|X]; [exact X|]. rewrite X in E1. destruct E1.
Qed.
Print Assumptions C59_fractions.

(** ** A task without any processor *)
(** Its constraint has no terms and is dropped, so the task is accepted. *)
Theorem C59_no_processor_unsafe : exists m ts afs solve al, representable m ts afs /\ correct solve ts afs /\ call solve ts afs = Solution al /\
  exists s, legal_edf (map etask_of ts) s /\ forall K sc, (1 <= K)%nat -> avalid m afs (refine K s) sc -> ~ ameets m K (map etask_of ts) s sc.
Proof.
  set (t := task_init 1 10 0 0 0 0). exists 1%nat, [t; t], [[]; [O]], (fun _ => Some (fun _ => 1%Q)). eexists. split; [|split; [|split; [reflexivity|]]].
  - constructor.
    + intros u [<-|[<-|[]]]; cbn; lia.
    + intros af [<-|[<-|[]]]; repeat constructor; intros [].
    + intros af c [<-|[<-|[]]] H; cbn in H; [destruct H|]. destruct H as [<-|[]]; lia.
    + cbn. lia.
  - unfold correct. cbn [solves]. constructor.
    + intros v. lra.
    + intros v [].
    + intros e b H. vm_compute in H. destruct H as [H|[]]. injection H as <- <-. reflexivity.
    + intros e b H. vm_compute in H. destruct H as [H|[]]. injection H as <- <-. vm_compute. discriminate.
  - exists (periodic [t; t]). split; [apply periodic_legal; intros u [<-|[<-|[]]]; cbn; lia|].
    intros K sc HK V M. destruct (M (O, O) (etask_of t) eq_refl) as [q [_ Q]]. cbn in Q.
    assert (Z : aservice 1 sc (O, O) q = 0).
    { unfold aservice. apply sumf_zero. intros u _. apply sumf_zero. intros c _. destruct (aruns sc (O, O) u c) eqn:E; [|reflexivity]. exfalso. apply aruns_iff in E.
      destruct (V u c _ E) as [_ [[af [A1 A2]] _]]. cbn in A1. injection A1 as <-. destruct A2. }
    rewrite Z in Q. lia.
Qed.
Print Assumptions C59_no_processor_unsafe.

(** ** Affinities passed from Python *)
Lemma add_cpu_spec : forall i afs c, NoDup (nth i afs []) -> ~ In c (nth i afs []) ->
  (forall k, nth k (add_cpu afs i c) [] = if Nat.eqb k i then nth i afs [] ++ [c] else nth k afs []) /\ length (add_cpu afs i c) = Nat.max (length afs) (S i).
Proof.
  induction i as [|i IH]; intros [|a r] c ND NI; cbn [add_cpu nth length].
  - split; [intros [|[|k]]; reflexivity|reflexivity].
  - split; [|symmetry; apply Nat.max_l, le_n_S, Nat.le_0_l]. intros [|k]; [|reflexivity]. cbn. unfold set_insert. cbn in NI. destruct (existsb (Nat.eqb c) a) eqn:E; [|reflexivity]. exfalso. apply NI.
    apply existsb_exists in E. destruct E as [d [E1 E2]]. apply Nat.eqb_eq in E2. subst d. exact E1.
  - destruct (IH [] c) as [A B]; [destruct i; constructor|destruct i; intros []|]. split; [|exact (f_equal S B)].
    intros [|k]; [reflexivity|]. cbn [nth]. rewrite A. cbn. destruct i, k; reflexivity.
  - destruct (IH r c ND NI) as [A B]. split; [|exact (f_equal S B)]. intros [|k]; [reflexivity|]. apply A.
Qed.

Lemma add_all i cpus : forall afs, NoDup (nth i afs [] ++ cpus) ->
  let r := fold_left (fun afs cpu => add_cpu afs i cpu) cpus afs in
  (forall k, nth k r [] = if Nat.eqb k i then nth i afs [] ++ cpus else nth k afs []) /\ length r = if cpus then length afs else Nat.max (length afs) (S i).
Proof.
  induction cpus as [|c r IH]; intros afs ND; cbn [fold_left].
  - split; [|reflexivity]. intros k. rewrite app_nil_r. destruct (Nat.eqb_spec k i) as [->|]; reflexivity.
  - destruct (add_cpu_spec i afs c) as [A B].
    + eapply NoDup_app_remove_r || idtac. clear - ND. induction (nth i afs []) as [|x l IHl]; [constructor|]. inversion ND as [|y z N1 N2]; subst. constructor; [intros X; apply N1; rewrite in_app_iff; auto|auto].
    + intros X. apply NoDup_remove_2 in ND. apply ND. rewrite in_app_iff. auto.
    + unfold affinities, affinity in *. assert (E : nth i (add_cpu afs i c) [] = nth i afs [] ++ [c]) by (rewrite A, Nat.eqb_refl; reflexivity).
      destruct (IH (add_cpu afs i c)) as [C D]; [unfold affinities, affinity in *; rewrite E, <- app_assoc; exact ND|]. unfold affinities, affinity in *. split.
      * intros k. rewrite C, E, A, <- app_assoc. destruct (Nat.eqb_spec k i); reflexivity.
      * rewrite D, B. destruct r; lia.
Qed.

(** Every task keeps its affinity; only trailing tasks without a processor are
    lost, in which case the call aborts. *)
Theorem C59_affinities_kept : forall tasks, Forall (@NoDup nat) tasks ->
  (forall i, nth i (get_native_affinities tasks) [] = nth i tasks []) /\
  (length (get_native_affinities tasks) <= length tasks)%nat /\
  (forall tasks' af, tasks = tasks' ++ [af] -> af <> [] -> get_native_affinities tasks = tasks).
Proof.
  intros tasks ND.
  assert (G : forall pre, Forall (@NoDup nat) pre -> let st := fold_left (fun st cpus => (fold_left (fun afs cpu => add_cpu afs (snd st) cpu) cpus (fst st), S (snd st))) pre ([], O) in
    snd st = length pre /\ (forall i, nth i (fst st) [] = nth i pre []) /\ (length (fst st) <= length pre)%nat /\ (forall p af, pre = p ++ [af] -> af <> [] -> length (fst st) = length pre)).
  { unfold affinities, affinity in *. induction pre as [|af pre IH] using rev_ind; intros F; cbn zeta.
    - cbn. repeat split; intros; try lia.
    - apply Forall_app in F. destruct F as [F1 F2]. inversion F2 as [|x y F3 _]; subst. specialize (IH F1). cbn zeta in IH. rewrite fold_left_app. cbn [fold_left].
      set (st := fold_left _ pre _) in *. unfold affinities, affinity in *. destruct IH as [I1 [I2 [I3 _]]]. cbn [fst snd]. rewrite I1.
      assert (E : nth (length pre) (fst st) [] = []) by (rewrite I2; apply nth_overflow; lia).
      destruct (add_all (length pre) af (fst st)) as [A B]; [unfold affinities, affinity in *; rewrite E; exact F3|]. cbn zeta in A, B. unfold affinities, affinity in *. rewrite E in A. cbn [app] in A. rewrite app_length. cbn [length].
      split; [lia|]. split; [|split].
      + intros i. rewrite A. destruct (Nat.eqb_spec i (length pre)) as [->|N].
        * rewrite app_nth2, Nat.sub_diag by lia. reflexivity.
        * rewrite I2. destruct (le_lt_dec (length pre) i) as [L|L]; [rewrite (nth_overflow pre), nth_overflow by (rewrite ?app_length; cbn; lia); reflexivity|rewrite app_nth1 by exact L; reflexivity].
      + rewrite B. destruct af; lia.
      + intros p af' Ep NE. apply app_inj_tail in Ep. destruct Ep as [_ <-]. rewrite B. destruct af; [congruence|lia]. }
  destruct (G tasks ND) as [G1 [G2 [G3 G4]]]. split; [exact G2|]. split; [exact G3|].
  intros tasks' af E NE. apply (nth_ext _ _ [] []); [eapply G4; eassumption|]. intros i _. apply G2.
Qed.
Print Assumptions C59_affinities_kept.

(** ** The test case of tests/apa.py:242-262: utilizations 7/10, 6/10 and 1/2,
    the last task may use both processors *)
Definition ex_ts : ntaskset := [task_init 7 10 0 0 0 0; task_init 6 10 0 0 0 0; task_init 10 20 0 0 0 0].
Definition ex_aff : affinities := get_native_affinities [[1]; [2]; [1; 2]]%nat.
Definition ex_answer : lprog nat -> option (nat -> Q) := fun _ => Some (fun v => nth v [1; 1; 3 # 5; 2 # 5; 0; 0]%Q 0%Q).

Lemma ex_representable : representable 3 ex_ts ex_aff.
Proof.
  constructor.
  - intros u H. vm_compute in H. repeat destruct H as [<-|H]; try contradiction; cbn; lia.
  - intros af H. vm_compute in H. repeat destruct H as [<-|H]; try contradiction; repeat constructor; cbn; intuition; discriminate.
  - intros af c H1 H2. vm_compute in H1. repeat destruct H1 as [<-|H1]; try contradiction; cbn in H2; intuition lia.
  - cbn. lia.
Qed.

Lemma ex_solves : correct ex_answer ex_ts ex_aff.
Proof.
  unfold correct, ex_answer. cbn [solves]. constructor.
  - intros v. do 6 (destruct v as [|v]; [cbn; lra|]). destruct v; cbn; lra.
  - intros v [].
  - intros e b H. vm_compute in H. repeat (destruct H as [H|H]; [injection H as <- <-; reflexivity|]). destruct H.
  - intros e b H. vm_compute in H. repeat (destruct H as [H|H]; [injection H as <- <-; vm_compute; discriminate|]). destruct H.
Qed.

Example C59_case : afeasible 3 (map etask_of ex_ts) ex_aff.
Proof.
  apply (C59_exact 3 ex_ts ex_aff ex_answer ex_representable).
  - intros af H. vm_compute in H. repeat destruct H as [<-|H]; try contradiction; discriminate.
  - exact ex_solves.
  - vm_compute. discriminate.
  - eexists. reflexivity.
Qed.

(** with a further task of utilization 3/10 nothing fits *)
Definition ex_ts2 : ntaskset := ex_ts ++ [task_init 30 100 0 0 0 0].
Definition ex_aff2 : affinities := get_native_affinities [[1]; [2]; [1; 2]; [1; 2]]%nat.

Example C59_case_infeasible : ~ afeasible 3 (map etask_of ex_ts2) ex_aff2.
Proof.
  assert (SV : correct (fun _ => None) ex_ts2 ex_aff2).
  { unfold correct. cbn [solves]. intros x F. apply columns_feasible, apa_lp_meaning in F. destruct F as [F1 [F2 F3]].
    assert (A0 := F2 0%nat _ eq_refl ltac:(discriminate)). assert (A1 := F2 1%nat _ eq_refl ltac:(discriminate)). assert (A2 := F2 2%nat _ eq_refl ltac:(discriminate)). assert (A3 := F2 3%nat _ eq_refl ltac:(discriminate)).
    assert (B1 := F3 1%nat ltac:(vm_compute; tauto) ltac:(discriminate)). assert (B2 := F3 2%nat ltac:(vm_compute; tauto) ltac:(discriminate)).
    set (y := fun v => x (fraction (fvar_mapper (lp_vars (apa_lp ex_ts2 ex_aff2))) v)) in *.
    assert (C1 : (0 <= y (0%nat, 2%nat))%Q) by apply F1. assert (C2 : (0 <= y (1%nat, 1%nat))%Q) by apply F1. clear F1 F2 F3. clearbody y.
    unfold evaluate in *. cbn -[Qmult Qplus] in A0, A1, A2, A3, B1, B2. unfold n_util, frac in B1, B2. cbn -[Qmult Qplus Qdiv] in B1, B2.
    unfold Qdiv in *. change (/ inject_Z 10)%Q with (1 # 10)%Q in *. change (/ inject_Z 20)%Q with (1 # 20)%Q in *. change (/ inject_Z 100)%Q with (1 # 100)%Q in *. unfold inject_Z in *.
    unfold fvar in *. change (7 * (1 # 10))%Q with (7 # 10)%Q in *. change (6 * (1 # 10))%Q with (6 # 10)%Q in *. change (10 * (1 # 20))%Q with (10 # 20)%Q in *. change (30 * (1 # 100))%Q with (30 # 100)%Q in *. lra. }
  intros H. apply (C59_exact 3 ex_ts2 ex_aff2 (fun _ => None)) in H.
  - destruct H as [al H]. vm_compute in H. discriminate.
  - constructor.
    + intros u X. vm_compute in X. repeat destruct X as [<-|X]; try contradiction; cbn; lia.
    + intros af X. vm_compute in X. repeat destruct X as [<-|X]; try contradiction; repeat constructor; cbn; intuition; discriminate.
    + intros af c H1 H2. vm_compute in H1. repeat destruct H1 as [<-|H1]; try contradiction; cbn in H2; intuition lia.
    + cbn. lia.
  - intros af X. vm_compute in X. repeat destruct X as [<-|X]; try contradiction; discriminate.
  - exact SV.
  - vm_compute. discriminate.
Qed.
