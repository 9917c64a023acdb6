(** Property theorems C84: partitioning tasks onto clusters of processors (example/mapping.py). *)
From Coq Require Import QArith ZArith List Bool Arith Lia Lqa Permutation Sorted.
From Verif Require Import Base ModelBinpack SpecBinpack ProofBinpack ModelRollback SpecRollback ProofRollback ModelClusters.
Import ListNotations.
Open Scope Q_scope.

(** ** Specification.  A cluster is its capacity and its tasks. *)
Section Spec.
  Context {A : Type} (util : A -> Q).

  Definition room (c : Q * list A) : Q := fst c - load util (snd c).

  (** [spread v ts v']: tasks go one after the other to the cluster with the most
      room, the first one of these, where they fit. *)
  Inductive spread : list (Q * list A) -> list A -> list (Q * list A) -> Prop :=
  | spread_done : forall v, spread v [] v
  | spread_next : forall pre cap l post x r v',
      util x <= room (cap, l) ->
      (forall c, In c pre -> room c < room (cap, l)) -> (forall c, In c post -> room c <= room (cap, l)) ->
      spread (pre ++ (cap, l ++ [x]) :: post) r v' -> spread (pre ++ (cap, l) :: post) (x :: r) v'.

  (** This ends with a task that has no room in any cluster. *)
  Definition stuck (v : list (Q * list A)) (ts : list A) : Prop :=
    exists before x after v', ts = before ++ x :: after /\ spread v before v' /\ forall c, In c v' -> room c < util x.

  (** The processors of cluster [i]: one is set aside for interrupts in the first. *)
  Definition processors (cluster_size : Z) (dedicated_irq : bool) (i : nat) : Z :=
    match i, dedicated_irq with O, true => (cluster_size - 1)%Z | _, _ => cluster_size end.

  (** At least one cluster; all empty. *)
  Definition empty_clusters (cluster_size clusters : Z) (dedicated_irq : bool) : list (Q * list A) :=
    map (fun i => (inject_Z (processors cluster_size dedicated_irq i), [])) (seq 0 (Z.to_nat (Z.max 1 clusters))).

  Definition total (v : list (Q * list A)) : Q := fold_right (fun c s => fst c + s) 0 v.
End Spec.

(** ** Proofs *)
Section Proofs.
  Context {A : Type} (util : A -> Q).
  Notation nou := (fun (_ : A) (_ : list A) (o : A) => o).
  Notation nod := (fun (x : A) (_ : list A) => x).
  Notation loop := (binpack_loop util false nou nod (fun _ => true) WorstFit None (fun _ => false)).

  Lemma spare_room : forall b : @bin A, spare_capacity util b == room util (see b).
  Proof. intros b. unfold spare_capacity, allocated_capacity, room, see. cbn [fst snd]. rewrite sum_sizes_load. reflexivity. Qed.

  Lemma infeasible_room : forall (b : @bin A) x, infeasible_to_fit util b x = true -> room util (see b) < util x.
  Proof.
    intros b x H. unfold infeasible_to_fit in H. apply negb_true_iff in H.
    destruct (Qlt_le_dec (room util (see b)) (util x)) as [L|L]; [assumption|]. exfalso.
    assert (E : Qle_bool (util x) (spare_capacity util b) = true) by (apply Qle_bool_iff; rewrite spare_room; exact L). congruence.
  Qed.

  Lemma place_worst_room : forall bs x,
    (exists pre b post, bs = pre ++ b :: post /\ util x <= room util (see b) /\
       (forall c, In c pre -> room util (see c) < room util (see b)) /\ (forall c, In c post -> room util (see c) <= room util (see b)) /\
       place_worst util false nou nod (fun _ => true) bs x = (true, pre ++ put_item x b :: post, x)) \/
    ((forall b, In b bs -> room util (see b) < util x) /\ place_worst util false nou nod (fun _ => true) bs x = (false, bs, x)).
  Proof.
    intros bs x. unfold place_worst.
    destruct (place_fit_fixed util nou nod larger (fun q => q) bs x larger_lt id_shift id_proper) as [[i [[Hi Hm] E]]|[Hn E]].
    - left. unfold feasible in Hi. destruct (nth_error bs i) as [b|] eqn:Eb; [|discriminate]. apply negb_true_iff in Hi.
      destruct (update_split _ (put_item x) bs i b Eb) as (pre & post & Li & E1 & E2).
      assert (Hf : util x <= room util (see b)).
      { apply feasible_le in Hi. unfold room, see. cbn [fst snd]. lra. }
      assert (Si : spare_at util bs i == room util (see b)) by (unfold spare_at; rewrite Eb; apply spare_room).
      assert (Any : forall j c, nth_error bs j = Some c -> room util (see c) <= room util (see b) /\ (room util (see c) == room util (see b) -> (i <= j)%nat)).
      { intros j c Hc. destruct (infeasible_to_fit util c x) eqn:F.
        - apply infeasible_room in F. split; [lra|]. intros X. exfalso. lra.
        - assert (P : feasible util bs x j = true) by (unfold feasible; rewrite Hc, F; reflexivity).
          destruct (Hm j P) as [M1 M2]. cbv beta in M1, M2. assert (Sj : spare_at util bs j == room util (see c)) by (unfold spare_at; rewrite Hc; apply spare_room).
          rewrite Si, Sj in M1, M2. split; assumption. }
      exists pre, b, post. split; [exact E1|]. split; [exact Hf|].
      split; [|split].
      + intros c Hc. apply In_nth_error in Hc. destruct Hc as (j & Hj).
        assert (Lj : (j < length pre)%nat) by (apply nth_error_Some; congruence).
        destruct (Any j c) as [A1 A2]; [rewrite E1, nth_error_app1; assumption|].
        destruct (Qlt_le_dec (room util (see c)) (room util (see b))) as [L|L]; [assumption|]. exfalso.
        assert (X : room util (see c) == room util (see b)) by lra. apply A2 in X. lia.
      + intros c Hc. apply In_nth_error in Hc. destruct Hc as (j & Hj). apply (Any (length pre + S j)%nat).
        rewrite E1, nth_error_app2 by lia. replace (length pre + S j - length pre)%nat with (S j) by lia. exact Hj.
      + rewrite E, E2. reflexivity.
    - right. split; [|exact E]. intros b Hb. apply In_nth_error in Hb. destruct Hb as (j & Hj). specialize (Hn j). unfold feasible in Hn. rewrite Hj in Hn.
      apply negb_false_iff in Hn. apply infeasible_room. exact Hn.
  Qed.

  Lemma loop_misfits : forall todo bs cur mis count s n raised, loop todo bs cur mis count = (s, n, raised) -> (length mis <= length (misfits s))%nat.
  Proof.
    induction todo as [|x todo IH]; intros bs cur mis count s n raised H; cbn [binpack_loop] in H; [injection H as <- <- <-; reflexivity|].
    destruct (place_or_open _ _ _ _ _ _ _ bs cur x) as [[[ok bs1] x1] cur1]. destruct ok; apply IH in H; [assumption|].
    rewrite app_length in H. cbn in H. lia.
  Qed.

  Lemma loop_spread : forall todo bs cur mis count s n raised, loop todo bs cur mis count = (s, n, raised) ->
    (spread util (views bs) todo (views (bins s)) /\ misfits s = mis) \/ (stuck util (views bs) todo /\ (length mis < length (misfits s))%nat).
  Proof.
    induction todo as [|x todo IH]; intros bs cur mis count s n raised H; cbn [binpack_loop] in H.
    - injection H as <- <- <-. left. split; [constructor|reflexivity].
    - unfold place_or_open, try_to_place_item in H.
      destruct (place_worst_room bs x) as [(pre & b & post & E & F & L1 & L2 & P)|[F P]]; rewrite P in H.
      + apply IH in H.
        assert (V : views bs = views pre ++ (max_capacity b, items b) :: views post) by (rewrite E; unfold views; rewrite map_app; reflexivity).
        assert (V' : views (pre ++ put_item x b :: post) = views pre ++ (max_capacity b, items b ++ [x]) :: views post) by (unfold views; rewrite map_app; reflexivity).
        rewrite V' in H. rewrite V.
        assert (St : forall r v', spread util (views pre ++ (max_capacity b, items b ++ [x]) :: views post) r v' ->
                     spread util (views pre ++ (max_capacity b, items b) :: views post) (x :: r) v').
        { intros r v' S0. apply spread_next; [exact F| | |exact S0]; intros c Hc; unfold views in Hc; apply in_map_iff in Hc;
            destruct Hc as (c0 & <- & Hc); [apply L1|apply L2]; exact Hc. }
        destruct H as [[H1 H2]|[(bf & y & af & v' & T & S1 & S2) H2]].
        * left. split; [apply St; exact H1|exact H2].
        * right. split; [|exact H2]. exists (x :: bf), y, af, v'. split; [cbn; rewrite T; reflexivity|]. split; [apply St; exact S1|exact S2].
      + right. split.
        * exists [], x, todo, (views bs). split; [reflexivity|]. split; [constructor|]. intros c Hc. unfold views in Hc. apply in_map_iff in Hc.
          destruct Hc as (c0 & <- & Hc). apply F. exact Hc.
        * apply loop_misfits in H. rewrite app_length in H. cbn in H. lia.
  Qed.

  Lemma views_initial : forall sz n irq, views (@initial_bins A sz n irq) = empty_clusters sz n irq.
  Proof.
    intros sz n irq. unfold empty_clusters, initial_bins. replace (Z.to_nat (Z.max 1 n)) with (S (Z.to_nat (n - 1))) by lia.
    unfold views. cbn [seq map]. unfold see at 1. cbn [max_capacity items]. f_equal.
    generalize 0%nat as a. induction (Z.to_nat (n - 1)) as [|k IH]; intros a; [reflexivity|]. cbn [repeat map seq]. rewrite (IH (S a)). reflexivity.
  Qed.

  Lemma spread_caps : forall v ts v', spread util v ts v' -> map fst v' = map fst v.
  Proof. intros v ts v' H. induction H as [|pre cap l post x r v' _ _ _ _ IH]; [reflexivity|]. rewrite IH, !map_app. reflexivity. Qed.

  Lemma spread_perm : forall v ts v', spread util v ts v' -> Permutation (concat (map snd v')) (concat (map snd v) ++ ts).
  Proof.
    intros v ts v' H. induction H as [|pre cap l post x r v' _ _ _ _ IH]; [rewrite app_nil_r; reflexivity|]. rewrite IH, !map_app, !concat_app. cbn [map concat snd].
    rewrite <- !app_assoc. apply Permutation_app_head, Permutation_app_head. cbn. apply (Permutation_middle (concat (map snd post)) r x).
  Qed.

  Lemma spread_fits : forall v ts v', spread util v ts v' -> (forall c, In c v -> snd c = [] \/ 0 <= room util c) -> forall c, In c v' -> snd c = [] \/ 0 <= room util c.
  Proof.
    intros v ts v' H. induction H as [|pre cap l post x r v' F _ _ _ IH]; intros I0; [exact I0|]. apply IH. intros c Hc. apply in_app_or in Hc.
    destruct Hc as [Hc|[<-|Hc]]; [apply I0, in_or_app; auto| |apply I0, in_or_app; right; right; exact Hc].
    right. unfold room in *. cbn [fst snd] in *. rewrite load_app. cbn [load]. lra.
  Qed.

  Lemma number_in : forall sz irq (l : list (list A)) k c, In c (number_from k sz irq l) <->
    exists i, nth_error l i = Some (tasks_of c) /\ partition_no c = (k + i)%nat /\ cpus c = processors sz irq (k + i).
  Proof.
    intros sz irq. induction l as [|a l IH]; intros k c; cbn [number_from].
    - split; [intros []|]. intros (i & H & _). destruct i; discriminate.
    - split.
      + intros [<-|H].
        * exists 0%nat. cbn. rewrite Nat.add_0_r. split; [reflexivity|]. split; [reflexivity|]. destruct k, irq; reflexivity.
        * apply IH in H. destruct H as (i & H1 & H2 & H3). exists (S i). rewrite Nat.add_succ_r. auto.
      + intros ([|i] & H1 & H2 & H3).
        * left. destruct c as [p q t]. cbn in *. injection H1 as ->. rewrite Nat.add_0_r in *. subst. destruct k, irq; reflexivity.
        * right. apply IH. exists i. rewrite Nat.add_succ_r in *. auto.
  Qed.

  Lemma number_sorted : forall sz irq (l : list (list A)) k,
    StronglySorted lt (map partition_no (filter non_empty (number_from k sz irq l))) /\
    Forall (fun i => (k <= i)%nat) (map partition_no (filter non_empty (number_from k sz irq l))).
  Proof.
    intros sz irq. induction l as [|a l IH]; intros k; cbn [number_from filter]; [split; constructor|].
    destruct (IH (S k)) as [S1 S2]. destruct (non_empty _); cbn [map partition_no].
    - split; constructor; auto; eapply Forall_impl; try exact S2; cbn; intros; lia.
    - split; [exact S1|]. eapply Forall_impl; [|exact S2]. cbn. intros; lia.
  Qed.

  Lemma number_tasks : forall sz irq (l : list (list A)) k, concat (map tasks_of (filter non_empty (number_from k sz irq l))) = concat l.
  Proof.
    intros sz irq. induction l as [|a l IH]; intros k; [reflexivity|]. cbn [number_from filter]. destruct a as [|x a]; cbn [non_empty tasks_of map concat];
      [apply IH|rewrite IH; reflexivity].
  Qed.

  Lemma partition_cases : forall sz n irq ts,
    match partition_tasks util sz n irq ts with
    | Some cs => exists v, spread util (empty_clusters sz n irq) ts v /\ cs = filter non_empty (number_from 0 sz irq (map snd v))
    | None => stuck util (empty_clusters sz n irq) ts
    end.
  Proof.
    intros sz n irq ts. unfold partition_tasks, binpack. cbn [remaining_items bins cur_index misfits app].
    destruct (loop ts (initial_bins sz n irq) 0 [] 0) as [[s c] raised] eqn:E. apply loop_spread in E. rewrite views_initial in E.
    destruct E as [[E1 E2]|[E1 E2]].
    - rewrite E2. exists (views (bins s)). split; [exact E1|]. rewrite <- contents_views. reflexivity.
    - destruct (misfits s); [cbn in E2; lia|exact E1].
  Qed.

  Lemma load_concat : forall v : list (Q * list A), total v == load util (concat (map snd v)) + fold_right (fun c s => room util c + s) 0 v.
  Proof. induction v as [|[c l] v IH]; [reflexivity|]. cbn [total fold_right map concat fst snd]. fold (total v). rewrite load_app, IH. unfold room. cbn [fst snd]. ring. Qed.

  Lemma load_perm' : forall l l' : list A, Permutation l l' -> load util l == load util l'.
  Proof. induction 1; cbn [load]; try lra. Qed.

  Lemma total_caps : forall v v' : list (Q * list A), map fst v = map fst v' -> total v == total v'.
  Proof.
    induction v as [|[c l] v IH]; intros [|[c' l'] v'] H; try discriminate; [reflexivity|]. cbn in H. injection H as -> H. cbn [total fold_right fst].
    apply IH in H. unfold total in H. rewrite H. reflexivity.
  Qed.

  Lemma rooms_small : forall (v : list (Q * list A)) u, v <> [] -> (forall c, In c v -> room util c < u) ->
    fold_right (fun c s => room util c + s) 0 v < inject_Z (Z.of_nat (length v)) * u.
  Proof.
    induction v as [|c v IH]; intros u N H; [congruence|]. cbn [fold_right length]. rewrite Nat2Z.inj_succ, <- Z.add_1_r, inject_Z_plus.
    assert (H0 : room util c < u) by (apply H; left; reflexivity). destruct v as [|d v].
    - cbn [fold_right length Z.of_nat]. change (inject_Z 0) with 0. change (inject_Z 1) with 1. lra.
    - assert (H1 := IH u ltac:(discriminate) (fun e He => H e (or_intror He))). change (inject_Z 1) with 1. lra.
  Qed.

  Lemma load_nonneg : forall l : list A, (forall x, In x l -> 0 <= util x) -> 0 <= load util l.
  Proof. induction l as [|x l IH]; intros H; [cbn; lra|]. cbn [load]. assert (0 <= util x) by (apply H; left; reflexivity). assert (0 <= load util l) by (apply IH; intros; apply H; right; assumption). lra. Qed.
End Proofs.

(** ** C84 *)

(** Tasks are spread over the clusters by worst fit; the result lists the clusters that
    got tasks, in order, each with its number and its processors.  False is returned
    only if a task had no room in any cluster. *)
Theorem C84_worst_fit : forall A (util : A -> Q) cluster_size clusters dedicated_irq ts,
  match partition_tasks util cluster_size clusters dedicated_irq ts with
  | Some cs => StronglySorted lt (map partition_no cs) /\
      exists v, spread util (empty_clusters cluster_size clusters dedicated_irq) ts v /\
      forall c, In c cs <-> tasks_of c <> [] /\ nth_error v (partition_no c) = Some (inject_Z (cpus c), tasks_of c)
  | None => stuck util (empty_clusters cluster_size clusters dedicated_irq) ts
  end.
Proof.
  intros A util sz n irq ts. pose proof (partition_cases util sz n irq ts) as H. destruct (partition_tasks util sz n irq ts) as [cs|]; [|exact H].
  destruct H as (v & S1 & ->). split; [apply number_sorted|]. exists v. split; [exact S1|]. intros c. rewrite filter_In, number_in.
  pose proof (spread_caps _ _ _ _ S1) as Cp.
  assert (Cap : forall i w, nth_error v i = Some w -> fst w = inject_Z (processors sz irq i)).
  { intros i w Hw. assert (X : nth_error (map fst v) i = Some (fst w)) by (rewrite nth_error_map, Hw; reflexivity).
    rewrite Cp in X. unfold empty_clusters in X. rewrite map_map, nth_error_map in X. cbn [fst] in X.
    destruct (nth_error (seq 0 (Z.to_nat (Z.max 1 n))) i) as [j|] eqn:Ej; [|discriminate]. cbn in X. injection X as <-.
    assert (Li : (i < Z.to_nat (Z.max 1 n))%nat) by (rewrite <- (seq_length (Z.to_nat (Z.max 1 n)) 0); apply nth_error_Some; congruence).
    apply (nth_error_nth _ _ 0%nat) in Ej. rewrite seq_nth in Ej by exact Li. cbn in Ej. subst j. reflexivity. }
  split.
  - intros ((i & H1 & H2 & H3) & H4). cbn in H2, H3. split; [unfold non_empty in H4; destruct (tasks_of c); congruence|].
    rewrite nth_error_map in H1. destruct (nth_error v i) as [w|] eqn:Ew; [|discriminate]. cbn in H1. injection H1 as H1.
    rewrite H2, Ew, H3, <- (Cap i w Ew), <- H1. destruct w; reflexivity.
  - intros (H1 & H2). split; [|unfold non_empty; destruct (tasks_of c); congruence]. exists (partition_no c). rewrite nth_error_map, H2. cbn.
    split; [reflexivity|]. split; [reflexivity|]. apply Cap in H2. cbn in H2. injection H2 as H2. exact H2.
Qed.
Print Assumptions C84_worst_fit.

(** Every task is in exactly one cluster, no cluster is empty or has more utilization
    than processors, and numbers are in range. *)
Theorem C84_partition : forall A (util : A -> Q) cluster_size clusters dedicated_irq ts cs,
  partition_tasks util cluster_size clusters dedicated_irq ts = Some cs ->
  Permutation (concat (map tasks_of cs)) ts /\ NoDup (map partition_no cs) /\
  forall c, In c cs -> tasks_of c <> [] /\ load util (tasks_of c) <= inject_Z (cpus c) /\
    (Z.of_nat (partition_no c) < Z.max 1 clusters)%Z /\ cpus c = processors cluster_size dedicated_irq (partition_no c).
Proof.
  intros A util sz n irq ts cs H. pose proof (partition_cases util sz n irq ts) as P. pose proof (C84_worst_fit A util sz n irq ts) as W. rewrite H in P, W.
  destruct P as (v & S1 & ->). split; [|split].
  - rewrite number_tasks. rewrite (spread_perm _ _ _ _ S1). unfold empty_clusters. rewrite map_map. cbn [snd].
    replace (concat (map (fun _ : nat => @nil A) (seq 0 (Z.to_nat (Z.max 1 n))))) with (@nil A); [reflexivity|].
    induction (seq 0 (Z.to_nat (Z.max 1 n))); [reflexivity|]. assumption.
  - destruct W as [W _]. induction W as [|a l _ IH F]; constructor; [|exact IH]. intros X. rewrite Forall_forall in F. specialize (F a X). lia.
  - intros c Hc. destruct W as [_ (v' & S2 & W)]. destruct (proj1 (W c) Hc) as [N1 N2]. split; [exact N1|].
    assert (Len : length v' = Z.to_nat (Z.max 1 n)).
    { rewrite <- (map_length fst v'), (spread_caps _ _ _ _ S2), map_length. unfold empty_clusters. rewrite map_length, seq_length. reflexivity. }
    split; [|split].
    + assert (Hin := nth_error_In _ _ N2).
      apply (spread_fits _ _ _ _ S2) in Hin.
      * destruct Hin as [X|X]; [contradiction|]. unfold room in X. cbn [fst snd] in X. lra.
      * intros d Hd. unfold empty_clusters in Hd. apply in_map_iff in Hd. destruct Hd as (? & <- & _). left; reflexivity.
    + assert (X : (partition_no c < length v')%nat) by (apply nth_error_Some; congruence). lia.
    + apply filter_In in Hc. destruct Hc as [Hc _]. apply number_in in Hc. destruct Hc as (i & _ & X & Y). rewrite X. exact Y.
Qed.
Print Assumptions C84_partition.

(** A partition is found if the total utilization leaves room for the largest task in
    all clusters but one. *)
Theorem C84_found : forall A (util : A -> Q) cluster_size clusters dedicated_irq ts u,
  (forall x, In x ts -> 0 <= util x <= u) ->
  load util ts <= total (@empty_clusters A cluster_size clusters dedicated_irq) - inject_Z (Z.max 1 clusters - 1) * u ->
  exists cs, partition_tasks util cluster_size clusters dedicated_irq ts = Some cs.
Proof.
  intros A util sz n irq ts u Hu Hl. pose proof (partition_cases util sz n irq ts) as P. destruct (partition_tasks util sz n irq ts) as [cs|]; [eauto|exfalso].
  destruct P as (bf & x & af & v & -> & S1 & S2).
  assert (Len : length v = Z.to_nat (Z.max 1 n)).
  { rewrite <- (map_length fst v), (spread_caps _ _ _ _ S1), map_length. unfold empty_clusters. rewrite map_length, seq_length. reflexivity. }
  pose proof (total_caps v _ (spread_caps _ _ _ _ S1)) as T. rewrite (load_concat util) in T.
  pose proof (load_perm' util _ _ (spread_perm _ _ _ _ S1)) as L. rewrite load_app in L.
  assert (E : load util (concat (map snd (@empty_clusters A sz n irq))) == 0).
  { unfold empty_clusters. rewrite map_map. cbn [snd]. induction (seq 0 (Z.to_nat (Z.max 1 n))); [reflexivity|]. assumption. }
  assert (R : fold_right (fun c s => room util c + s) 0 v < inject_Z (Z.of_nat (length v)) * util x).
  { apply rooms_small; [|exact S2]. intros ->. cbn in Len. lia. }
  replace (Z.of_nat (length v)) with (Z.max 1 n - 1 + 1)%Z in R by lia. rewrite inject_Z_plus in R. change (inject_Z 1) with 1 in R.
  assert (Ux : 0 <= util x <= u) by (apply Hu, in_or_app; right; left; reflexivity).
  assert (M : inject_Z (Z.max 1 n - 1) * util x <= inject_Z (Z.max 1 n - 1) * u).
  { rewrite !(Qmult_comm (inject_Z _)). apply Qmult_le_compat_r; [lra|]. change 0 with (inject_Z 0). rewrite <- Zle_Qle. lia. }
  assert (N : 0 <= load util af) by (apply load_nonneg; intros y Hy; apply Hu, in_or_app; right; right; exact Hy).
  rewrite load_app in Hl. cbn [load] in Hl. lra.
Qed.
Print Assumptions C84_found.

(** A task's partition is not always the position of its cluster in the result. *)
Theorem C84_position_refuted : exists (ts : list Q) cs c, partition_tasks (fun q => q) 1 2 true ts = Some cs /\
  nth_error cs 0 = Some c /\ partition_no c <> 0%nat.
Proof. exists [1#2], [Cluster 1 1 [1#2]], (Cluster 1 1 [1#2]). split; [vm_compute; reflexivity|]. split; [reflexivity|discriminate]. Qed.
Print Assumptions C84_position_refuted.

Example C84_sample :
  partition_tasks (fun q : Q => q) 2 3 true [1#2; 3#4; 3#4; 1; 1; 1#4] =
    Some [Cluster 0 1 [1]; Cluster 1 2 [1#2; 3#4; 1#4]; Cluster 2 2 [3#4; 1]] /\
  partition_tasks (fun q : Q => q) 2 2 true [1; 1; 1; 1#2] = None /\
  (forall x : Q, In x [1#2; 3#4; 3#4; 1#2; 1#2] -> 0 <= x <= 1) /\
  load (fun q => q) [1#2; 3#4; 3#4; 1#2; 1#2] <= total (@empty_clusters Q 2 3 true) - inject_Z (Z.max 1 3 - 1) * 1.
Proof.
  split; [vm_compute; reflexivity|]. split; [vm_compute; reflexivity|]. split; [|vm_compute; discriminate].
  intros x H. cbn in H. repeat destruct H as [<-|H]; try contradiction; split; vm_compute; discriminate.
Qed.
