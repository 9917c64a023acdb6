(** Invariants of one step of the simulator. *)
From Coq Require Import ZArith List Bool Lia Permutation.
From Verif Require Import Base ModelTasks ModelSim.
Import ListNotations.
Open Scope Z_scope.

(** the tasks in a list of processors or of events *)
Definition somes (l : list (option nat)) : list nat := flat_map (fun o => match o with Some i => [i] | None => [] end) l.

Lemma somes_in : forall l i, In i (somes l) <-> In (Some i) l.
Proof.
  intros l i. unfold somes. rewrite in_flat_map. split.
  - intros [[x|] [H1 H2]]; [destruct H2 as [<-|[]]; exact H1|destruct H2].
  - intros H. exists (Some i). split; [exact H|left; reflexivity].
Qed.

Lemma somes_app : forall a b, somes (a ++ b) = somes a ++ somes b.
Proof. intros a b. unfold somes. apply flat_map_app. Qed.

Lemma somes_len : forall l, (length (somes l) <= length l)%nat.
Proof. induction l as [|[x|] l IH]; [cbn; lia| |]; cbn [somes flat_map app length]; fold (somes l); lia. Qed.

Lemma somes_full : forall l, ~ In None l -> length (somes l) = length l.
Proof.
  induction l as [|[x|] l IH]; intros H; [reflexivity| |exfalso; apply H; left; reflexivity].
  cbn [somes flat_map app length]. fold (somes l). rewrite IH; [reflexivity|]. intros G. apply H. right. exact G.
Qed.

Definition waiting (ev : list (Z * option nat)) : list nat := somes (map snd ev).

Lemma waiting_in : forall ev i, In i (waiting ev) <-> exists e, In (e, Some i) ev.
Proof.
  intros ev i. unfold waiting. rewrite somes_in, in_map_iff. split.
  - intros [[e o] [H1 H2]]. cbn in H1. subst o. exists e. exact H2.
  - intros [e H]. exists (e, Some i). split; [reflexivity|exact H].
Qed.

Lemma waiting_app : forall a b, waiting (a ++ b) = waiting a ++ waiting b.
Proof. intros a b. unfold waiting. rewrite map_app. apply somes_app. Qed.

Lemma filter_split : forall A (f : A -> bool) l, Permutation l (filter f l ++ filter (fun x => negb (f x)) l).
Proof.
  intros A f l. induction l as [|x l IH]; [constructor|]. cbn [filter]. destruct (f x); cbn [negb app].
  - constructor. exact IH.
  - apply Permutation_cons_app. exact IH.
Qed.

Lemma waiting_perm : forall a b, Permutation a b -> Permutation (waiting a) (waiting b).
Proof. intros a b H. unfold waiting, somes. apply Permutation_flat_map. apply Permutation_map. exact H. Qed.

(** fields of the job of task i *)
Definition rl (q : queues) i := j_release (jobs q i).
Definition al (q : queues) i := j_alloc (jobs q i).
Definition sq (q : queues) i := j_seqno (jobs q i).

Section Step.
  Variables (ts : taskset) (pick : nat -> nat) (pre : bool).
  Hypothesis Hts : Forall (fun t => 1 <= t_cost t /\ 1 <= t_period t) ts.

  Definition sC i := t_cost (sim_task ts i).
  Definition sP i := t_period (sim_task ts i).
  Definition dl (q : queues) i := job_deadline (sim_task ts i) (jobs q i).

  Lemma sim_pos : forall i, 1 <= sC i /\ 1 <= sP i.
  Proof.
    intros i. unfold sC, sP, sim_task. destruct (Nat.lt_ge_cases i (length ts)) as [H|H].
    - rewrite Forall_forall in Hts. apply Hts. apply nth_In. exact H.
    - rewrite nth_overflow by exact H. cbn. lia.
  Qed.

  (** does the job of task i complete when it runs for delta more time units? *)
  Definition fin (q : queues) (delta : Z) (i : nat) : bool := sC i <=? al q i + delta.
  Definition ran (q : queues) (delta : Z) (i : nat) : simjob :=
    if fin q delta i then init_next (sim_task ts i) (increase_allocation (jobs q i) delta) else increase_allocation (jobs q i) delta.

  Lemma advance_spec : forall T delta ps q, NoDup (somes ps) ->
    let '(ps', q', log) := advance_procs ts T delta ps q in
    ps' = map (fun o => match o with Some i => if fin q delta i then None else o | None => None end) ps /\
    (forall i, In i (somes ps) -> jobs q' i = ran q delta i) /\ (forall i, ~ In i (somes ps) -> jobs q' i = jobs q i) /\
    pending q' = pending q ++ filter (fun i => fin q delta i && negb (T <=? rl q i + sP i)) (somes ps) /\
    events q' = events q ++ map (fun i => (rl q i + sP i, Some i)) (filter (fun i => fin q delta i && (T <=? rl q i + sP i)) (somes ps)) /\
    log = map (fun i => Completion T i (sq q i) (dl q i)) (filter (fin q delta) (somes ps)).
  Proof.
    intros T delta ps. induction ps as [|[i|] ps IH]; intros q Hnd.
    - cbn. rewrite !app_nil_r. repeat split; intros i [].
    - cbn [somes flat_map app] in *. fold (somes ps) in *. inversion Hnd as [|x l Hni Hnd' E1]; subst.
      cbn [advance_procs]. set (j := increase_allocation (jobs q i) delta). set (q1 := set_job q i j).
      assert (Ef : is_complete (sim_task ts i) j = fin q delta i) by reflexivity.
      (* the rest of the processors sees the same jobs *)
      assert (Same : forall q2, (forall i', i' <> i -> jobs q2 i' = jobs q i') ->
        (forall i', In i' (somes ps) -> fin q2 delta i' = fin q delta i') /\ (forall i', In i' (somes ps) -> ran q2 delta i' = ran q delta i') /\
        (forall i', In i' (somes ps) -> rl q2 i' = rl q i') /\ (forall i', In i' (somes ps) -> sq q2 i' = sq q i') /\ (forall i', In i' (somes ps) -> dl q2 i' = dl q i')).
      { intros q2 E2. assert (E3 : forall i', In i' (somes ps) -> jobs q2 i' = jobs q i') by (intros i' Hi'; apply E2; intros ->; contradiction).
        unfold ran, fin, al, rl, sq, dl. repeat split; intros i' Hi'; rewrite (E3 i' Hi'); reflexivity. }
      rewrite Ef. destruct (fin q delta i) eqn:Ed.
      + specialize (IH (job_completed ts T q1 i) Hnd'). destruct (advance_procs ts T delta ps (job_completed ts T q1 i)) as [[ps' q'] log].
        assert (Ej : forall i', jobs (job_completed ts T q1 i) i' = if Nat.eqb i' i then ran q delta i else jobs q i').
        { intros i'. unfold job_completed, add_release. destruct (T <=? _); cbn [jobs add_ready]; unfold q1; cbn [set_job jobs]; destruct (Nat.eqb i' i); try reflexivity;
            unfold ran; rewrite Ed, Nat.eqb_refl; reflexivity. }
        destruct (Same (job_completed ts T q1 i)) as [S1 [S2 [S3 [S4 S5]]]].
        { intros i' Hi'. rewrite Ej. apply Nat.eqb_neq in Hi'. rewrite Hi'. reflexivity. }
        destruct IH as [I1 [I2 [I3 [I4 [I5 I6]]]]].
        assert (Er : j_release (jobs (set_job q1 i (init_next (sim_task ts i) (jobs q1 i))) i) = rl q i + sP i).
        { cbn [set_job jobs]. rewrite Nat.eqb_refl. unfold q1. cbn [set_job jobs]. rewrite Nat.eqb_refl. cbn. unfold rl, sP. lia. }
        assert (Eq : pending (job_completed ts T q1 i) = pending q ++ (if T <=? rl q i + sP i then [] else [i]) /\
          events (job_completed ts T q1 i) = events q ++ (if T <=? rl q i + sP i then [(rl q i + sP i, Some i)] else [])).
        { unfold job_completed, add_release. rewrite Er. destruct (T <=? rl q i + sP i); cbn [pending events add_ready set_job]; unfold q1; cbn [pending events set_job];
            rewrite ?app_nil_r; split; reflexivity. }
        destruct Eq as [Eq1 Eq2].
        split; [|split; [|split; [|split; [|split]]]].
        * cbn [map]. rewrite Ed. f_equal. rewrite I1. apply map_ext_in. intros [i'|] Hi'; [|reflexivity]. rewrite S1; [reflexivity|]. apply somes_in. exact Hi'.
        * intros i' [<-|Hi']; [|rewrite I2, S2 by exact Hi'; reflexivity]. rewrite (I3 i Hni), Ej, Nat.eqb_refl. reflexivity.
        * intros i' Hi'. rewrite I3 by (intros G; apply Hi'; right; exact G). rewrite Ej.
          destruct (Nat.eqb_spec i' i) as [->|]; [exfalso; apply Hi'; left; reflexivity|reflexivity].
        * rewrite I4, Eq1. cbn [filter]. rewrite Ed. cbn [andb].
          rewrite (filter_ext_in _ (fun i' => fin q delta i' && negb (T <=? rl q i' + sP i'))) by (intros i' Hi'; rewrite S1, S3 by exact Hi'; reflexivity).
          destruct (T <=? rl q i + sP i); cbn [negb app]; rewrite <- app_assoc; reflexivity.
        * rewrite I5, Eq2. cbn [filter]. rewrite Ed. cbn [andb].
          rewrite (filter_ext_in _ (fun i' => fin q delta i' && (T <=? rl q i' + sP i'))) by (intros i' Hi'; rewrite S1, S3 by exact Hi'; reflexivity).
          rewrite (map_ext_in _ (fun i' => (rl q i' + sP i', Some i'))) by (intros i' Hi'; apply filter_In in Hi'; destruct Hi' as [Hi' _]; rewrite S3 by exact Hi'; reflexivity).
          destruct (T <=? rl q i + sP i); cbn [map app]; rewrite <- app_assoc; reflexivity.
        * rewrite I6. cbn [filter]. rewrite Ed. cbn [map]. f_equal.
          rewrite (filter_ext_in _ (fin q delta)) by exact S1. apply map_ext_in. intros i' Hi'. apply filter_In in Hi'. destruct Hi' as [Hi' _].
          rewrite S4, S5 by exact Hi'. reflexivity.
      + specialize (IH q1 Hnd'). destruct (advance_procs ts T delta ps q1) as [[ps' q'] log].
        assert (Ej : forall i', jobs q1 i' = if Nat.eqb i' i then ran q delta i else jobs q i').
        { intros i'. unfold q1. cbn [set_job jobs]. destruct (Nat.eqb i' i); [|reflexivity]. unfold ran. rewrite Ed. reflexivity. }
        destruct (Same q1) as [S1 [S2 [S3 [S4 S5]]]].
        { intros i' Hi'. rewrite Ej. apply Nat.eqb_neq in Hi'. rewrite Hi'. reflexivity. }
        destruct IH as [I1 [I2 [I3 [I4 [I5 I6]]]]].
        split; [|split; [|split; [|split; [|split]]]].
        * cbn [map]. rewrite Ed. f_equal. rewrite I1. apply map_ext_in. intros [i'|] Hi'; [|reflexivity]. rewrite S1; [reflexivity|]. apply somes_in. exact Hi'.
        * intros i' [<-|Hi']; [|rewrite I2, S2 by exact Hi'; reflexivity]. rewrite (I3 i Hni), Ej, Nat.eqb_refl. reflexivity.
        * intros i' Hi'. rewrite I3 by (intros G; apply Hi'; right; exact G). rewrite Ej.
          destruct (Nat.eqb_spec i' i) as [->|]; [exfalso; apply Hi'; left; reflexivity|reflexivity].
        * rewrite I4. cbn [filter]. rewrite Ed. cbn [andb]. f_equal. apply filter_ext_in. intros i' Hi'. rewrite S1, S3 by exact Hi'. reflexivity.
        * rewrite I5. cbn [filter]. rewrite Ed. cbn [andb]. f_equal.
          rewrite (filter_ext_in _ (fun i' => fin q delta i' && (T <=? rl q i' + sP i'))) by (intros i' Hi'; rewrite S1, S3 by exact Hi'; reflexivity).
          apply map_ext_in. intros i' Hi'. apply filter_In in Hi'. destruct Hi' as [Hi' _]. rewrite S3 by exact Hi'. reflexivity.
        * rewrite I6. cbn [filter]. rewrite Ed.
          rewrite (filter_ext_in _ (fin q delta)) by exact S1. apply map_ext_in. intros i' Hi'. apply filter_In in Hi'. destruct Hi' as [Hi' _].
          rewrite S4, S5 by exact Hi'. reflexivity.
    - cbn [somes flat_map app] in *. fold (somes ps) in *. cbn [advance_procs]. specialize (IH q Hnd).
      destruct (advance_procs ts T delta ps q) as [[ps' q'] log]. destruct IH as [I1 I2]. split; [cbn [map]; f_equal; exact I1|exact I2].
  Qed.

  Lemma fire_spec : forall l q, fold_left fire l q = Queues (pending q ++ waiting l) (events q) (jobs q).
  Proof.
    intros l. induction l as [|[e [i|]] l IH]; intros q; cbn [fold_left].
    - unfold waiting. cbn. rewrite app_nil_r. destruct q; reflexivity.
    - rewrite IH. cbn [fire snd add_ready pending events jobs]. rewrite <- app_assoc. reflexivity.
    - rewrite IH. reflexivity.
  Qed.

  Variables (m : nat).

  (** What holds at every point of a step. *)
  Record core (nw : Z) (ps : list (option nat)) (q : queues) : Prop := {
    c_len : length ps = m;
    c_perm : Permutation (somes ps ++ pending q ++ waiting (events q)) (seq 0 (length ts));
    c_run : forall i, In i (somes ps) \/ In i (pending q) -> rl q i <= nw /\ 0 <= al q i < sC i;
    c_wait : forall e i, In (e, Some i) (events q) -> e = rl q i /\ al q i = 0;
    c_ev : forall e, In e (events q) -> nw <= fst e;
    c_dummy : forall i, In i (somes ps) -> exists e, In (e, None) (events q) /\ e = nw + sC i - al q i;
    c_np : pre = false -> forall i, In i (pending q) -> al q i = 0 }.

  (** What holds between steps in addition. *)
  Record settled (nw : Z) (ps : list (option nat)) (q : queues) : Prop := {
    s_ev : forall e, In e (events q) -> nw < fst e;
    s_busy : forall i, In i (pending q) -> ~ In None ps;
    s_prio : forall r i, In r (somes ps) -> In i (pending q) -> pre = true \/ al q r = 0 -> dl q r <= dl q i }.

  Definition Inv (st : simstate) : Prop := core (now st) (procs st) (qs st) /\ settled (now st) (procs st) (qs st).

  Lemma core_nodup : forall nw ps q, core nw ps q -> NoDup (somes ps ++ pending q ++ waiting (events q)).
  Proof. intros nw ps q H. apply (Permutation_NoDup (Permutation_sym (c_perm _ _ _ H))). apply seq_NoDup. Qed.

  Lemma nodup_app : forall A (a b : list A), NoDup (a ++ b) -> NoDup a /\ NoDup b /\ forall x, In x a -> ~ In x b.
  Proof.
    intros A a b. induction a as [|x a IH]; cbn [app]; intros H.
    - split; [constructor|]. split; [exact H|]. intros x [].
    - inversion H; subst. destruct (IH H3) as [I1 [I2 I3]]. split; [|split].
      + constructor; [|exact I1]. intros G. apply H2. apply in_or_app. left. exact G.
      + exact I2.
      + intros y [<-|Hy]; [|apply I3; exact Hy]. intros G. apply H2. apply in_or_app. right. exact G.
  Qed.

  Lemma core_disj : forall nw ps q, core nw ps q -> NoDup (somes ps) /\
    (forall i, In i (somes ps) -> ~ In i (pending q) /\ ~ In i (waiting (events q))) /\ (forall i, In i (pending q) -> ~ In i (waiting (events q))).
  Proof.
    intros nw ps q H. pose proof (core_nodup _ _ _ H) as N. destruct (nodup_app _ _ _ N) as [N1 [N2 N3]]. destruct (nodup_app _ _ _ N2) as [N4 [N5 N6]].
    split; [exact N1|]. split; [|exact N6]. intros i Hi. split; intros G; apply (N3 i Hi); apply in_or_app; [left|right]; exact G.
  Qed.

  Lemma somes_map : forall (f : nat -> bool) ps,
    somes (map (fun o => match o with Some i => if f i then None else o | None => None end) ps) = filter (fun i => negb (f i)) (somes ps).
  Proof.
    intros f ps. induction ps as [|[i|] ps IH]; [reflexivity| |exact IH]. cbn [map somes flat_map app]. fold (somes ps).
    cbn [filter]. destruct (f i); cbn [negb app]; [exact IH|f_equal; exact IH].
  Qed.

  Lemma somes_some : forall A (f : A -> nat) l, somes (map (fun x => Some (f x)) l) = map f l.
  Proof. intros A f l. induction l as [|x l IH]; [reflexivity|]. cbn [map somes flat_map app]. f_equal. exact IH. Qed.

  (** Sub-step 1 *)
  Lemma core_advance : forall nw ps q T, core nw ps q -> nw <= T -> (forall e, In e (events q) -> T <= fst e) ->
    let '(ps', q', log) := advance_procs ts T (T - nw) ps q in
    core T ps' q' /\ (forall i, In i (somes ps') -> nw < T -> 0 < al q' i) /\
    (somes ps = [] -> somes ps' = [] /\ log = []) /\
    (forall i, In i (somes ps) -> al q i + (T - nw) <= sC i) /\
    (forall i, jobs q' i = if existsb (Nat.eqb i) (somes ps) then ran q (T - nw) i else jobs q i) /\
    log = map (fun i => Completion T i (sq q i) (dl q i)) (filter (fin q (T - nw)) (somes ps)).
  Proof.
    intros nw ps q T Hc HT HE. destruct (core_disj _ _ _ Hc) as [N1 [N2 N3]].
    pose proof (advance_spec T (T - nw) ps q N1) as A. destruct (advance_procs ts T (T - nw) ps q) as [[ps' q'] log].
    destruct A as [A1 [A2 [A3 [A4 [A5 A6]]]]]. set (d := T - nw) in *.
    assert (Hd : 0 <= d) by (unfold d; lia).
    assert (Sm : somes ps' = filter (fun i => negb (fin q d i)) (somes ps)) by (rewrite A1; apply somes_map).
    assert (Wt : waiting (events q') = waiting (events q) ++ filter (fun i => fin q d i && (T <=? rl q i + sP i)) (somes ps)).
    { rewrite A5, waiting_app. f_equal. unfold waiting. rewrite map_map. cbn [snd]. rewrite (somes_some _ (fun i => i)). apply map_id. }
    assert (Lim : forall i, In i (somes ps) -> al q i + d <= sC i).
    { intros i Hi. destruct (c_dummy _ _ _ Hc i Hi) as [e [He ->]]. specialize (HE _ He). cbn [fst] in HE. unfold d. lia. }
    split; [|split; [|split; [|split; [|split]]]].
    - constructor.
      + rewrite A1, map_length. exact (c_len _ _ _ Hc).
      + rewrite Sm, A4, Wt. eapply Permutation_trans; [|exact (c_perm _ _ _ Hc)].
        set (X := somes ps). set (pn := pending q). set (w := waiting (events q)).
        assert (PX : Permutation X (filter (fun i => negb (fin q d i)) X ++ filter (fun i => fin q d i && negb (T <=? rl q i + sP i)) X ++ filter (fun i => fin q d i && (T <=? rl q i + sP i)) X)).
        { eapply Permutation_trans; [apply (filter_split _ (fun i => negb (fin q d i)))|]. apply Permutation_app_head.
          rewrite (filter_ext (fun x => negb (negb (fin q d x))) (fin q d)) by (intros; apply negb_involutive).
          eapply Permutation_trans; [apply (filter_split _ (fun i => negb (T <=? rl q i + sP i)))|].
          assert (FF : forall g, filter g (filter (fin q d) X) = filter (fun i => fin q d i && g i) X).
          { intros g. clear. induction X as [|x X IH]; [reflexivity|]. cbn [filter]. destruct (fin q d x); cbn [filter andb]; [|exact IH]. destruct (g x); [f_equal|]; exact IH. }
          rewrite !FF. apply Permutation_app_head. rewrite (filter_ext (fun i => fin q d i && negb (negb (T <=? rl q i + sP i))) (fun i => fin q d i && (T <=? rl q i + sP i)));
            [reflexivity|]. intros i. rewrite negb_involutive. reflexivity. }
        set (X1 := filter (fun i => negb (fin q d i)) X) in *. set (X2 := filter (fun i => fin q d i && negb (T <=? rl q i + sP i)) X) in *.
        set (X3 := filter (fun i => fin q d i && (T <=? rl q i + sP i)) X) in *.
        apply (Permutation_count_occ Nat.eq_dec). intros x. pose proof (proj1 (Permutation_count_occ Nat.eq_dec _ _) PX x) as Px.
        rewrite !count_occ_app in *. lia.
      + intros i Hi. rewrite Sm, A4 in Hi. destruct Hi as [Hi|Hi].
        * apply filter_In in Hi. destruct Hi as [Hi Hf]. destruct (c_run _ _ _ Hc i (or_introl Hi)) as [G1 G2].
          unfold rl, al. rewrite (A2 i Hi). unfold ran. destruct (fin q d i) eqn:Ef; [discriminate|]. cbn. fold (rl q i) (al q i).
          unfold fin in Ef. apply Z.leb_gt in Ef. lia.
        * apply in_app_or in Hi. destruct Hi as [Hi|Hi].
          -- destruct (c_run _ _ _ Hc i (or_intror Hi)) as [G1 G2]. unfold rl, al. rewrite A3 by (intros G; apply (proj1 (N2 i G)); exact Hi). fold (rl q i) (al q i). lia.
          -- apply filter_In in Hi. destruct Hi as [Hi Hf]. apply andb_true_iff in Hf. destruct Hf as [Hf Hr]. unfold rl, al. rewrite (A2 i Hi). unfold ran. rewrite Hf. cbn.
             fold (rl q i). pose proof (sim_pos i). unfold sP in *. lia.
      + intros e i Hi. rewrite A5 in Hi. apply in_app_or in Hi. destruct Hi as [Hi|Hi].
        * destruct (c_wait _ _ _ Hc e i Hi) as [G1 G2]. unfold rl, al. rewrite A3; [split; assumption|]. intros G. apply (proj2 (N2 i G)). apply waiting_in. exists e. exact Hi.
        * apply in_map_iff in Hi. destruct Hi as [i' [E Hi]]. inversion E; subst i' e. apply filter_In in Hi. destruct Hi as [Hi Hf]. apply andb_true_iff in Hf. destruct Hf as [Hf Hr].
          unfold rl, al. rewrite (A2 i Hi). unfold ran. rewrite Hf. cbn. unfold sP. split; [lia|reflexivity].
      + intros e Hi. rewrite A5 in Hi. apply in_app_or in Hi. destruct Hi as [Hi|Hi]; [exact (HE e Hi)|].
        apply in_map_iff in Hi. destruct Hi as [i' [<- Hi]]. apply filter_In in Hi. destruct Hi as [_ Hf]. cbn [fst]. lia.
      + intros i Hi. rewrite Sm in Hi. apply filter_In in Hi. destruct Hi as [Hi Hf]. destruct (c_dummy _ _ _ Hc i Hi) as [e [He Ee]]. exists e.
        split; [rewrite A5; apply in_or_app; left; exact He|]. unfold al. rewrite (A2 i Hi). unfold ran. destruct (fin q d i) eqn:Ef; [discriminate|]. cbn. fold (al q i). unfold d. lia.
      + intros Hp i Hi. rewrite A4 in Hi. apply in_app_or in Hi. destruct Hi as [Hi|Hi].
        * unfold al. rewrite A3 by (intros G; apply (proj1 (N2 i G)); exact Hi). exact (c_np _ _ _ Hc Hp i Hi).
        * apply filter_In in Hi. destruct Hi as [Hi Hf]. apply andb_true_iff in Hf. unfold al. rewrite (A2 i Hi). unfold ran. rewrite (proj1 Hf). reflexivity.
    - intros i Hi Hlt. rewrite Sm in Hi. apply filter_In in Hi. destruct Hi as [Hi Hf]. destruct (c_run _ _ _ Hc i (or_introl Hi)) as [_ G2].
      unfold al. rewrite (A2 i Hi). unfold ran. destruct (fin q d i); [discriminate|]. cbn. fold (al q i). unfold d. lia.
    - intros E. rewrite Sm, A6, E. split; reflexivity.
    - exact Lim.
    - intros i. destruct (existsb (Nat.eqb i) (somes ps)) eqn:Ei.
      + apply A2. apply existsb_exists in Ei. destruct Ei as [x [H1 H2]]. apply Nat.eqb_eq in H2. subst x. exact H1.
      + apply A3. intros G. assert (existsb (Nat.eqb i) (somes ps) = true); [|congruence]. apply existsb_exists. exists i. split; [exact G|apply Nat.eqb_refl].
    - exact A6.
  Qed.

  (** Sub-step 2 *)
  Lemma core_events : forall T ps q, core T ps q ->
    core T ps (process_events T q) /\ (forall e, In e (events (process_events T q)) -> T < fst e) /\ jobs (process_events T q) = jobs q.
  Proof.
    intros T ps q Hc. unfold process_events. rewrite fire_spec. cbn [pending events jobs].
    set (X1 := filter (fun e => fst e <=? T) (events q)). set (X2 := filter (fun e => negb (fst e <=? T)) (events q)).
    assert (Hin : forall e, In e X2 -> In e (events q) /\ T < fst e).
    { intros e He. apply filter_In in He. destruct He as [He Hf]. split; [exact He|lia]. }
    split; [|split; [intros e He; apply (proj2 (Hin e He))|reflexivity]]. constructor; cbn [pending events jobs]; unfold rl, al; cbn [jobs].
    - exact (c_len _ _ _ Hc).
    - eapply Permutation_trans; [|exact (c_perm _ _ _ Hc)]. apply Permutation_app_head. rewrite <- app_assoc. apply Permutation_app_head.
      rewrite <- waiting_app. apply waiting_perm. apply Permutation_sym. apply filter_split.
    - intros i Hi. assert (Hi' : (In i (somes ps) \/ In i (pending q)) \/ In i (waiting X1)).
      { destruct Hi as [Hi|Hi]; [left; left; exact Hi|]. apply in_app_or in Hi. destruct Hi as [Hi|Hi]; [left; right; exact Hi|right; exact Hi]. }
      destruct Hi' as [Hi'|Hi']; [exact (c_run _ _ _ Hc i Hi')|]. apply waiting_in in Hi'. destruct Hi' as [e He]. apply filter_In in He. destruct He as [He Hf]. cbn [fst] in Hf.
      destruct (c_wait _ _ _ Hc e i He) as [G1 G2]. unfold rl, al in *. rewrite G2. pose proof (sim_pos i). lia.
    - intros e i He. apply (c_wait _ _ _ Hc). apply Hin. exact He.
    - intros e He. destruct (Hin e He). lia.
    - intros i Hi. destruct (c_dummy _ _ _ Hc i Hi) as [e [He Ee]]. exists e. split; [|exact Ee]. apply filter_In. split; [exact He|]. cbn [fst].
      destruct (c_run _ _ _ Hc i (or_introl Hi)) as [_ G]. lia.
    - intros Hp i Hi. apply in_app_or in Hi. destruct Hi as [Hi|Hi]; [exact (c_np _ _ _ Hc Hp i Hi)|].
      apply waiting_in in Hi. destruct Hi as [e He]. apply filter_In in He. exact (proj2 (c_wait _ _ _ Hc e i (proj1 He))).
  Qed.

  Lemma set_proc_split : forall k v ps o, nth_error ps k = Some o -> exists l1 l2, ps = l1 ++ o :: l2 /\ set_proc k v ps = l1 ++ v :: l2.
  Proof.
    intros k v. induction k as [|k IH]; intros ps o H; (destruct ps as [|x ps]; [discriminate|]).
    - cbn in H. inversion H; subst. exists [], ps. split; reflexivity.
    - cbn in H. destruct (IH ps o H) as [l1 [l2 [E1 E2]]]. exists (x :: l1), l2. cbn [set_proc app]. rewrite <- E1, E2. split; reflexivity.
  Qed.

  Lemma remove_one_perm : forall i l, In i l -> Permutation l (i :: remove_one i l).
  Proof.
    intros i l. induction l as [|x l IH]; intros H; [destruct H|]. cbn [remove_one]. destruct (Nat.eqb_spec x i) as [->|N]; [reflexivity|].
    destruct H as [->|H]; [contradiction|]. eapply Permutation_trans; [apply perm_skip; apply IH; exact H|apply perm_swap].
  Qed.

  Lemma min_element_spec : forall d ps best k all, nth_error all (fst best) = Some (snd best) -> skipn k all = ps -> 
    (forall p, In p (firstn k all) -> lower_prio d p (snd best) = false) ->
    let r := min_element d best k ps in nth_error all (fst r) = Some (snd r) /\ forall p, In p all -> lower_prio d p (snd r) = false.
  Proof.
    intros d ps. induction ps as [|p ps IH]; intros best k all H1 H2 H3.
    - cbn [min_element]. split; [exact H1|]. intros p Hp. apply H3. rewrite <- (firstn_skipn k all), H2, app_nil_r in Hp. exact Hp.
    - cbn [min_element]. 
      assert (Ek : nth_error all k = Some p).
      { rewrite <- (firstn_skipn k all), H2. rewrite nth_error_app2 by apply firstn_le_length.
        assert (length (firstn k all) = k). { apply firstn_length_le. destruct (Nat.le_gt_cases k (length all)); [assumption|]. rewrite skipn_all2 in H2 by lia. discriminate. }
        rewrite H, Nat.sub_diag. reflexivity. }
      assert (ES : firstn (S k) all = firstn k all ++ [p]).
      { clear - Ek. revert k Ek. induction all as [|a all IH]; intros [|k] Ek; try discriminate; cbn in *; [inversion Ek; reflexivity|]. f_equal. apply IH. exact Ek. }
      apply IH.
      + destruct (lower_prio d p (snd best)); [exact Ek|exact H1].
      + clear - H2. revert k H2. induction all as [|a all IH]; intros [|k] H2; try discriminate; cbn in *; [inversion H2; reflexivity|]. apply IH. exact H2.
      + intros p' Hp'. rewrite ES in Hp'. apply in_app_or in Hp'. destruct (lower_prio d p (snd best)) eqn:El; cbn [snd].
        * destruct Hp' as [Hp'|[<-|[]]].
          -- specialize (H3 p' Hp'). unfold lower_prio in *. destruct p' as [x|], p as [y|], (snd best) as [z|]; try reflexivity; try discriminate; lia.
          -- unfold lower_prio. destruct p; [apply Z.ltb_irrefl|reflexivity].
        * destruct Hp' as [Hp'|[<-|[]]]; [apply H3; exact Hp'|exact El].
  Qed.

  Lemma queue_top_spec : forall k d l, match queue_top pick k d l with None => l = [] | Some h => In h l /\ forall x, In x l -> d h <= d x end.
  Proof.
    intros k d l. unfold queue_top. set (best := filter _ l).
    destruct (nth_error best (pick k mod length best)) as [h|] eqn:E.
    - apply nth_error_In in E. apply filter_In in E. destruct E as [E1 E2]. split; [exact E1|]. rewrite forallb_forall in E2. intros x Hx. specialize (E2 x Hx). lia.
    - destruct l as [|a l]; [reflexivity|]. exfalso. assert (Hex : exists b, In b best).
      { assert (Hmin : exists b, In b (a :: l) /\ forall x, In x (a :: l) -> d b <= d x).
        { clear. induction l as [|y l [b [B1 B2]]] using rev_ind; [exists a; split; [left; reflexivity|intros x [<-|[]]; lia]|].
          destruct (Z.le_gt_cases (d b) (d y)) as [L|L].
          - exists b. split; [destruct B1; [left|right; apply in_or_app; left]; assumption|]. intros x [<-|Hx]; [apply B2; left; reflexivity|].
            apply in_app_or in Hx. destruct Hx as [Hx|[<-|[]]]; [apply B2; right; exact Hx|exact L].
          - exists y. split; [right; apply in_or_app; right; left; reflexivity|]. intros x [<-|Hx]; [specialize (B2 a (or_introl eq_refl)); lia|].
            apply in_app_or in Hx. destruct Hx as [Hx|[<-|[]]]; [specialize (B2 x (or_intror Hx)); lia|lia]. }
        destruct Hmin as [b [B1 B2]]. exists b. apply filter_In. split; [exact B1|]. apply forallb_forall. intros x Hx. specialize (B2 x Hx). lia. }
      destruct Hex as [b Hb]. apply nth_error_None in E. destruct best as [|c best]; [destruct Hb|].
      pose proof (Nat.mod_upper_bound (pick k) (length (c :: best)) ltac:(cbn; lia)). lia.
  Qed.

  (** Sub-step 3.  [F] are the jobs that were scheduled in this step. *)
  Lemma preemptions_inv : (1 <= m)%nat -> forall fuel st F,
    core (now st) (procs st) (qs st) -> (forall e, In e (events (qs st)) -> now st < fst e) ->
    NoDup F -> incl F (somes (procs st)) -> (forall f i, In f F -> In i (pending (qs st)) -> dl (qs st) f <= dl (qs st) i) ->
    (forall r, In r (somes (procs st)) -> al (qs st) r = 0 -> In r F) -> (m < fuel + length F)%nat ->
    exists st', preemptions fuel pick pre ts st = Some st' /\ Inv st' /\ now st' = now st /\ jobs (qs st') = jobs (qs st).
  Proof.
    intros Hm fuel. induction fuel as [|fuel IH]; intros st F Hc He HF1 HF2 HF3 HF4 Hfuel.
    - exfalso. pose proof (NoDup_incl_length HF1 HF2). pose proof (somes_len (procs st)). rewrite (c_len _ _ _ Hc) in *. cbn in Hfuel. lia.
    - cbn [preemptions]. set (q := qs st) in *.
      change (fun i => job_deadline (sim_task ts i) (jobs q i)) with (dl q).
      pose proof (queue_top_spec (pops st) (dl q) (pending q)) as Top. destruct (queue_top pick (pops st) (dl q) (pending q)) as [h|].
      2:{ exists st. split; [reflexivity|]. split; [|split; reflexivity]. split; [exact Hc|]. constructor; fold q; rewrite ?Top; [exact He|intros i []|intros r i _ []]. }
      destruct Top as [Hh Hmin]. destruct (procs st) as [|p r] eqn:Eps.
      { exfalso. pose proof (c_len _ _ _ Hc) as L. cbn in L. lia. }
      pose proof (min_element_spec (dl q) r (O, p) 1 (p :: r) eq_refl eq_refl) as Me.
      assert (Me0 : forall p0, In p0 (firstn 1 (p :: r)) -> lower_prio (dl q) p0 (snd (0%nat, p)) = false).
      { cbn. intros p0 [<-|[]]. unfold lower_prio. destruct p; [apply Z.ltb_irrefl|reflexivity]. }
      specialize (Me Me0). cbv zeta in Me. destruct (min_element (dl q) (O, p) 1 r) as [k o]. cbn [fst snd] in Me. destruct Me as [Mk Mo].
      destruct (set_proc_split k (Some h) (p :: r) o Mk) as [l1 [l2 [El1 El2]]].
      destruct (core_disj _ _ _ Hc) as [N1 [N2 N3]].
      assert (Hhr : ~ In h (somes (p :: r))) by (intros G; apply (proj1 (N2 h G)); exact Hh).
      pose proof (remove_one_perm h (pending q) Hh) as Prem.
      destruct ((match o with None => true | Some _ => pre end) && lower_prio (dl q) o (Some h)) eqn:Ec.
      + apply andb_true_iff in Ec. destruct Ec as [Ec1 Ec2].
        set (back := match o with Some s => if negb (is_complete (sim_task ts s) (jobs q s)) then [s] else [] | None => [] end).
        assert (Eback : back = match o with Some s => [s] | None => [] end).
        { unfold back. destruct o as [s|]; [|reflexivity]. assert (Hs : In s (somes (p :: r))) by (rewrite El1; apply somes_in; apply in_or_app; right; left; reflexivity).
          destruct (c_run _ _ _ Hc s (or_introl Hs)) as [_ G]. unfold is_complete. fold (sC s). fold (al q s). destruct (sC s <=? al q s) eqn:Ex; [apply Z.leb_le in Ex; lia|reflexivity]. }
        rewrite Eback. clear back Eback.
        set (q' := Queues (remove_one h (pending q) ++ match o with Some s => [s] | None => [] end)
          (events q ++ [(remaining_demand (sim_task ts h) (jobs q h) + now st, None)]) (jobs q)).
        assert (HoF : forall s, o = Some s -> dl q h < dl q s /\ ~ In s F /\ pre = true /\ In s (somes (p :: r))).
        { intros s ->. cbn in Ec1, Ec2. split; [lia|]. split; [|split; [exact Ec1|]].
          - intros G. specialize (HF3 s h G Hh). lia.
          - rewrite El1. apply somes_in. apply in_or_app. right. left. reflexivity. }
        assert (Hsub : forall i, In i (remove_one h (pending q)) -> In i (pending q)) by (intros i Hi; apply (Permutation_in _ (Permutation_sym Prem)); right; exact Hi).
        assert (Hnew : forall i, In i (somes (l1 ++ Some h :: l2)) <-> i = h \/ (In i (somes (p :: r)) /\ o <> Some i)).
        { intros i. rewrite El1 in *. rewrite !somes_app in *. cbn [somes flat_map] in *. fold (somes l2) in *.
          assert (Hoi : o = Some i -> ~ In i (somes l1) /\ ~ In i (somes l2)).
          { intros ->. cbn [app] in N1. apply NoDup_remove in N1. destruct N1 as [_ N1]. split; intros G; apply N1; apply in_or_app; [left|right]; exact G. }
          rewrite !in_app_iff. cbn [app In]. destruct o as [s|]; cbn [app In] in *.
          - split.
            + intros [G|[[G|[]]|G]]; [right; split; [left; exact G|intros E; apply (proj1 (Hoi E)); exact G]|left; congruence|right; split; [right; right; exact G|intros E; apply (proj2 (Hoi E)); exact G]].
            + intros [->|[[G|[[G|[]]|G]] E]]; [right; left; left; reflexivity|left; exact G|exfalso; apply E; congruence|right; right; exact G].
          - split.
            + intros [G|[[G|[]]|G]]; [right; split; [left; exact G|discriminate]|left; congruence|right; split; [right; right; exact G|discriminate]].
            + intros [->|[[G|[[]|G]] E]]; [right; left; left; reflexivity|left; exact G|right; right; exact G]. }
        assert (Hpend : forall i, In i (pending q') <-> In i (remove_one h (pending q)) \/ o = Some i).
        { intros i. unfold q'. cbn [pending]. rewrite in_app_iff. destruct o as [s|]; cbn [In]; split; intros [G|G]; try (left; exact G); try contradiction; try discriminate.
          - destruct G as [->|[]]; right; reflexivity.
          - right; left; congruence. }
        assert (HcN : core (now st) (l1 ++ Some h :: l2) q').
        { constructor; fold q.
          - rewrite app_length. cbn [length]. pose proof (c_len _ _ _ Hc) as L. rewrite El1, app_length in L. cbn [length] in L. exact L.
          - eapply Permutation_trans; [|exact (c_perm _ _ _ Hc)]. unfold q'. cbn [pending events]. rewrite El1, waiting_app, !somes_app. unfold waiting at 2.
            cbn [map snd somes flat_map]. fold (somes l2).
            apply (Permutation_count_occ Nat.eq_dec). intros x. pose proof (proj1 (Permutation_count_occ Nat.eq_dec _ _) Prem x) as Px.
            change (h :: remove_one h (pending q)) with ([h] ++ remove_one h (pending q)) in Px.
            rewrite !count_occ_app in *. change (count_occ Nat.eq_dec [] x) with 0%nat. lia.
          - intros i Hi. change (rl q' i) with (rl q i). change (al q' i) with (al q i). apply (c_run _ _ _ Hc). destruct Hi as [Hi|Hi].
            + apply Hnew in Hi. destruct Hi as [->|[Hi _]]; [right; exact Hh|left; exact Hi].
            + apply Hpend in Hi. destruct Hi as [Hi|Hi]; [right; apply Hsub; exact Hi|left; apply (HoF i Hi)].
          - intros e i Hi. change (rl q' i) with (rl q i). change (al q' i) with (al q i). apply (c_wait _ _ _ Hc). unfold q' in Hi. cbn [events] in Hi.
            apply in_app_or in Hi. destruct Hi as [Hi|[Hi|[]]]; [exact Hi|discriminate].
          - intros e Hi. unfold q' in Hi. cbn [events] in Hi. apply in_app_or in Hi. destruct Hi as [Hi|[<-|[]]]; [exact (c_ev _ _ _ Hc e Hi)|]. cbn [fst].
            destruct (c_run _ _ _ Hc h (or_intror Hh)) as [_ G]. unfold remaining_demand. fold (sC h) (al q h). lia.
          - intros i Hi. change (al q' i) with (al q i). apply Hnew in Hi. unfold q'. cbn [events]. destruct Hi as [->|[Hi _]].
            + eexists. split; [apply in_or_app; right; left; reflexivity|]. unfold remaining_demand. fold (sC h) (al q h). lia.
            + destruct (c_dummy _ _ _ Hc i Hi) as [e [G1 G2]]. exists e. split; [apply in_or_app; left; exact G1|exact G2].
          - intros Hp i Hi. change (al q' i) with (al q i). apply Hpend in Hi. destruct Hi as [Hi|Hi]; [apply (c_np _ _ _ Hc Hp); apply Hsub; exact Hi|].
            destruct (HoF i Hi) as [_ [_ [G _]]]. congruence. }
        rewrite El2. destruct (IH (Sim (now st) (l1 ++ Some h :: l2) q' (S (pops st))) (h :: F)) as [st' [R1 [R2 [R3 R4]]]]; cbn [now procs qs pops].
        * exact HcN.
        * intros e Hi. unfold q' in Hi. cbn [events] in Hi. apply in_app_or in Hi. destruct Hi as [Hi|[<-|[]]]; [exact (He e Hi)|]. cbn [fst].
          destruct (c_run _ _ _ Hc h (or_intror Hh)) as [_ G]. unfold remaining_demand. fold (sC h) (al q h). lia.
        * constructor; [|exact HF1]. intros G. apply Hhr. apply HF2. exact G.
        * intros x [<-|Hx]; apply Hnew; [left; reflexivity|]. right. split; [apply HF2; exact Hx|]. intros E. apply (HoF x E). exact Hx.
        * intros f i Hf Hi. change (dl q' f) with (dl q f). change (dl q' i) with (dl q i). apply Hpend in Hi. destruct Hf as [<-|Hf].
          -- destruct Hi as [Hi|Hi]; [apply Hmin; apply Hsub; exact Hi|]. destruct (HoF i Hi). lia.
          -- destruct Hi as [Hi|Hi]; [apply HF3; [exact Hf|apply Hsub; exact Hi]|]. destruct (HoF i Hi). specialize (HF3 f h Hf Hh). lia.
        * intros x Hx H0. change (al q' x) with (al q x) in H0. apply Hnew in Hx. destruct Hx as [->|[Hx _]]; [left; reflexivity|right; apply HF4; assumption].
        * cbn [length]. lia.
        * exists st'. split; [exact R1|]. split; [exact R2|]. split; [exact R3|exact R4].
      + exists st. split; [reflexivity|]. split; [|split; reflexivity]. split; [rewrite Eps; exact Hc|].
        assert (Ho : exists s, o = Some s).
        { destruct o as [s|]; [exists s; reflexivity|]. exfalso. cbn in Ec. discriminate. }
        destruct Ho as [s ->]. constructor; fold q; rewrite ?Eps.
        * exact He.
        * intros i _ G. specialize (Mo None G). cbn in Mo. discriminate.
        * intros x i Hx Hi Hpx. destruct pre eqn:Epre; cbn [andb] in Ec.
          -- specialize (Mo (Some x) (proj1 (somes_in _ _) Hx)). cbn in Mo, Ec. specialize (Hmin i Hi). lia.
          -- destruct Hpx as [Hpx|Hpx]; [discriminate|]. apply HF3; [apply HF4; assumption|exact Hi].
  Qed.

  (** One step, from one settled state to the next. *)
  Lemma step_inv : (1 <= m)%nat -> forall st T, core (now st) (procs st) (qs st) -> (now st < T \/ (now st <= T /\ somes (procs st) = [])) ->
    (forall e, In e (events (qs st)) -> T <= fst e) ->
    exists st' log, advance_time pick pre ts st T = Some (st', log) /\ Inv st' /\ now st' = T /\
      (forall i, In i (somes (procs st)) -> al (qs st) i + (T - now st) <= sC i) /\
      (forall i, jobs (qs st') i = if existsb (Nat.eqb i) (somes (procs st)) then ran (qs st) (T - now st) i else jobs (qs st) i) /\
      log = map (fun i => Completion T i (sq (qs st) i) (dl (qs st) i)) (filter (fin (qs st) (T - now st)) (somes (procs st))).
  Proof.
    intros Hm st T Hc HT He. assert (HT' : now st <= T) by lia. pose proof (core_advance _ _ _ T Hc HT' He) as A. unfold advance_time.
    destruct (advance_procs ts T (T - now st) (procs st) (qs st)) as [[ps q] log]. destruct A as [A1 [A2 [A3 [A4 [A5 A6]]]]].
    destruct (core_events _ _ _ A1) as [B1 [B2 B3]].
    destruct (preemptions_inv Hm (S (length ps)) (Sim T ps (process_events T q) (pops st)) []) as [st' [P1 [P2 [P3 P4]]]]; cbn [now procs qs pops].
    - exact B1.
    - exact B2.
    - constructor.
    - intros x [].
    - intros f i [].
    - intros r Hr H0. exfalso. unfold al in H0. rewrite B3 in H0. fold (al q r) in H0. destruct HT as [HT|[_ HT]].
      + specialize (A2 r Hr HT). lia.
      + destruct (A3 HT) as [E _]. rewrite E in Hr. destruct Hr.
    - rewrite (c_len _ _ _ A1). cbn. lia.
    - rewrite P1. exists st', log. split; [reflexivity|]. split; [exact P2|]. split; [exact P3|]. split; [exact A4|]. split; [|exact A6].
      intros i. rewrite P4. cbn [qs]. rewrite B3. apply A5.
  Qed.
End Step.
