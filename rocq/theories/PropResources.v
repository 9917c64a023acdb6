(** Properties C30 (group locks), C31 (independent subsets), C32 (critical sections). *)
From Coq Require Import ZArith List Bool Arith Relations Lia Sorted Permutation.
From Verif Require Import ModelResources SpecResources ProofResources ProofSections ProofPartition.
Import ListNotations.
Local Open Scope nat_scope.

(** C30: identify_group_locks never fails, knows exactly the requested
    resources, the group of a resource is its class under chains of nesting,
    and two resources are bound to the same set object exactly when they are
    in the same class. *)
Theorem C30_groups : forall tasks, exists st, identify_group_locks tasks = Some st /\
  (forall r, requested tasks r <-> exists p, glookup (g_env st) r = Some p) /\
  (forall r p, glookup (g_env st) r = Some p -> forall s, In s (nth p (g_heap st) []) <-> same_group tasks r s) /\
  (forall r s p q, glookup (g_env st) r = Some p -> glookup (g_env st) s = Some q -> (p = q <-> same_group tasks r s)).
Proof. exact identify_spec. Qed.
Print Assumptions C30_groups.

(** C30: the resource model obtained by convert_to_group_locks has, for each
    task and each group (named by its least member), one write request per
    outermost section of the group and the maximal total length among them. *)
Theorem C30_model : forall tasks, exists (rep : nat -> nat) models,
  convert_to_group_locks tasks = Some models /\
  (forall r, requested tasks r -> same_group tasks r (rep r) /\ forall s, same_group tasks r s -> rep r <= s) /\
  Forall2 (fun f m => exists reqs, m = Some reqs /\ forall g,
    let mine := filter (fun c => Nat.eqb (rep (cs_res c)) g) f in
    get_req reqs g = Reqt g (Z.of_nat (length mine)) 0 (fold_right Z.max 0%Z (map cs_total mine)) 0 0) tasks models.
Proof. exact convert_spec. Qed.
Print Assumptions C30_model.

(** C30: every section inside an outermost section belongs to the group of the
    outermost one, so that one group lock protects all of them. *)
Theorem C30_protects : forall tasks f o c, In f tasks -> In o f -> within c o -> same_group tasks (cs_res o) (cs_res c).
Proof. exact within_group. Qed.
Print Assumptions C30_protects.

Definition forest1 : list csec := [CS 5 10 [CS 3 2 [CS 7 1 []]; CS 9 4 []]; CS 1 6 []]%Z.
Definition forest2 : list csec := [CS 1 3 [CS 2 1 []]; CS 8 5 []; CS 9 2 [CS 8 1 []]]%Z.
Example C30_case :
  identify_group_locks [forest1; forest2] = Some (GS [[5; 3; 7; 9; 8]; [3]; [7]; [9]; [1; 2]; [2]; [8]]
    [(8, 0); (8, 6); (2, 4); (2, 5); (1, 4); (9, 0); (9, 3); (7, 0); (7, 2); (3, 0); (3, 1); (5, 0)])
  /\ convert_to_group_locks [forest1; forest2] =
     Some [Some [(3, Reqt 3 1 0 17 0 0); (1, Reqt 1 1 0 6 0 0)]; Some [(1, Reqt 1 1 0 4 0 0); (3, Reqt 3 2 0 5 0 0)]]
  /\ same_group [forest1; forest2] 5 8 /\ In forest1 [forest1; forest2] /\ within (CS 7 1 []) (CS 5 10 [CS 3 2 [CS 7 1 []]; CS 9 4 []])%Z.
Proof.
  split; [reflexivity|]. split; [reflexivity|]. split; [|split; [left; reflexivity|]].
  - apply rst_trans with 9; apply rst_step.
    + exists forest1, (CS 5 10 [CS 3 2 [CS 7 1 []]; CS 9 4 []])%Z, (CS 9 4 []). split; [left; reflexivity|].
      split; [eexists; split; [left; reflexivity|constructor]|]. split; [constructor; right; left; reflexivity|auto].
    + exists forest2, (CS 9 2 [CS 8 1 []])%Z, (CS 8 1 []). split; [right; left; reflexivity|].
      split; [eexists; split; [right; right; left; reflexivity|constructor]|]. split; [constructor; left; reflexivity|auto].
  - apply within_step with (CS 3 2 [CS 7 1 []])%Z; [|constructor; left; reflexivity].
    apply within_step with (CS 7 1 []); [constructor|constructor; left; reflexivity].
Qed.

(** C31: in every subset that is reported the tasks are linked by chains of
    shared resources: the function never merges independent tasks. *)
Theorem C31_sound : forall tasks iter order torder s t u,
  In s (find_independent_tasksubsets iter order torder tasks) -> In t s -> In u s ->
  dependent tasks t u /\ exists a, In (t, a) tasks.
Proof. exact subsets_sound. Qed.
Print Assumptions C31_sound.

(** C31: if no task uses more than one resource, the result is the partition
    of the task set into the classes of dependent tasks, for every iteration
    order of sets and dictionaries. *)
Theorem C31_single : forall tasks, NoDup (map fst tasks) -> (forall t a, In (t, a) tasks -> length a <= 1) ->
  forall iter, (forall l, Permutation (iter l) l) -> forall order torder, NoDup order ->
  (forall r t a, In (t, a) tasks -> In r a -> In r order) -> (forall t a, In (t, a) tasks -> In t torder) ->
  partitions tasks (find_independent_tasksubsets iter order torder tasks).
Proof. exact single_partition. Qed.
Print Assumptions C31_single.

Example C31_case :
  find_independent_tasksubsets (fun l => l) [1; 2] [0; 1; 2; 3] [(0, [1]); (1, []); (2, [2]); (3, [1])] = [[0; 3]; [1]; [2]]
  /\ dependent [(0, [1]); (1, []); (2, [2]); (3, [1])] 0 3.
Proof. split; [reflexivity|]. apply rst_step. exists [1], [1], 1. cbn. auto 10. Qed.

(** C31 is false in general: merging two sets rebinds one resource only and
    leaves others attached to the old set.  Whatever the iteration orders of
    sets and dictionaries are, the result is not a partition. *)
Definition alias_tasks : list (nat * list nat) := [(0, [2; 3]); (1, [1; 2]); (2, [3])].

Lemma perm3 (a b c : nat) (l : list nat) : Permutation l [a; b; c] ->
  l = [a; b; c] \/ l = [a; c; b] \/ l = [b; a; c] \/ l = [b; c; a] \/ l = [c; a; b] \/ l = [c; b; a].
Proof.
  intros P. assert (L : length l = 3) by (rewrite (Permutation_length P); reflexivity).
  destruct l as [|x l]; [discriminate|].
  assert (I : In x [a; b; c]) by (apply (Permutation_in _ P); left; reflexivity). destruct I as [<-|[<-|[<-|[]]]].
  - apply Permutation_cons_inv in P. apply Permutation_sym, Permutation_length_2_inv in P. destruct P as [->| ->]; auto.
  - assert (Q : Permutation (b :: l) (b :: [a; c])) by (rewrite P; constructor). apply Permutation_cons_inv in Q.
    apply Permutation_sym, Permutation_length_2_inv in Q. destruct Q as [->| ->]; auto.
  - assert (Q : Permutation (c :: l) (c :: [a; b])) by (rewrite P; symmetry; apply (Permutation_cons_append [a; b] c)). apply Permutation_cons_inv in Q.
    apply Permutation_sym, Permutation_length_2_inv in Q. destruct Q as [->| ->]; auto 10.
Qed.

Theorem C31_refuted : exists tasks, NoDup (map fst tasks) /\
  forall iter, (forall l, Permutation (iter l) l) ->
  forall order torder, Permutation order [1; 2; 3] -> Permutation torder [0; 1; 2] ->
  (forall r t a, In (t, a) tasks -> In r a -> In r [1; 2; 3]) /\ (forall t a, In (t, a) tasks -> In t [0; 1; 2]) /\
  ~ partitions tasks (find_independent_tasksubsets iter order torder tasks).
Proof.
  exists alias_tasks. split; [repeat constructor; cbn; intuition discriminate|].
  intros iter Hi order torder Po Pt. split; [|split].
  - intros r t a [H|[H|[H|[]]]] Hr; injection H as <- <-; cbn in *; intuition.
  - intros t a [H|[H|[H|[]]]]; injection H as <- _; cbn; auto.
  - intros [H1 [H2 H3]].
    assert (E1 : iter [0; 2] = [0; 2] \/ iter [0; 2] = [2; 0]).
    { apply Permutation_length_2_inv. symmetry. apply Hi. }
    assert (E2 : iter [1; 0] = [1; 0] \/ iter [1; 0] = [0; 1]).
    { apply Permutation_length_2_inv. symmetry. apply Hi. }
    assert (D : dependent alias_tasks 1 2).
    { apply rst_trans with 0; apply rst_step.
      - exists [1; 2], [2; 3], 2. cbn. auto 10.
      - exists [2; 3], [3], 3. cbn. auto 10. }
    assert (N : forall s, In s (find_independent_tasksubsets iter order torder alias_tasks) -> In 1 s -> In 2 s -> False).
    { intros s Hs A B. unfold find_independent_tasksubsets in Hs. apply subsets_cells in Hs. destruct Hs as [p ->].
      unfold find_connected_components in *. cbn in A, B. destruct p as [|[|[|[|p]]]]; cbn in A, B; intuition discriminate. }
    destruct (H1 1 [1; 2]) as [s [S1 S2]]; [right; left; reflexivity|].
    apply (N s S1 S2). apply (H3 s 1 2 S1 S2). exact D.
Qed.
Print Assumptions C31_refuted.

(** C32: iteration visits every position of the nesting forest exactly once,
    outer sections before inner ones and from left to right; all_flat lists the
    same sections with the index of the enclosing one. *)
Theorem C32_iteration : forall f, exists ps, length ps = length (cs_all f) /\ StronglySorted before ps /\
  (forall p c, (exists held, path_to held f p c) <-> exists k, nth_error ps k = Some p /\ nth_error (cs_all f) k = Some c) /\
  length (all_flat f) = length (cs_all f) /\
  (forall k r l o, nth_error (all_flat f) k = Some (r, l, o) -> exists c p,
      nth_error (cs_all f) k = Some c /\ nth_error ps k = Some p /\ r = cs_res c /\ l = cs_len c /\
      ((length p = 1 /\ o = (-1)%Z) \/
       (1 < length p /\ exists j, j < k /\ nth_error ps j = Some (removelast p) /\ o = Z.of_nat j))).
Proof. exact iteration_spec. Qed.
Print Assumptions C32_iteration.

(** no position precedes itself, so the enumeration has no repetition *)
Theorem C32_order_strict : forall p, ~ before p p.
Proof. exact before_irrefl. Qed.
Print Assumptions C32_order_strict.

(** C32: the total length of a section is the sum over all sections in it. *)
Theorem C32_total : forall c, cs_total c = fold_right Z.add 0%Z (map cs_len (cs_iter c)) /\ (forall x, In x (cs_iter c) <-> within x c).
Proof. intros c. split; [apply total_spec|apply in_iter]. Qed.
Print Assumptions C32_total.

(** C32: the order check accepts exactly the forests in which each directly
    nested section has a larger resource id. *)
Theorem C32_well_ordered : forall f, all_nesting_well_ordered f = true <->
  forall c x, occurs c f -> child x c -> cs_res c < cs_res x.
Proof. exact well_ordered_spec. Qed.
Print Assumptions C32_well_ordered.

(** C32: if all tasks pass the check, no cyclic wait is possible: no resource is
    requested, through any chain of nestings of any tasks, inside itself; and
    no section is reentrant. *)
Theorem C32_deadlock_free : forall tasks, (forall f, In f tasks -> all_nesting_well_ordered f = true) ->
  (forall r, ~ clos_trans nat (requested_inside tasks) r r) /\ (forall f, In f tasks -> ~ reentrant f).
Proof.
  intros tasks H. split.
  - intros r C. pose proof (well_ordered_acyclic tasks H r r C). lia.
  - intros f Hf. apply well_ordered_not_reentrant, H, Hf.
Qed.
Print Assumptions C32_deadlock_free.

(** C32: whatever the history of construction, no section requests a resource
    that an enclosing section holds. *)
Theorem C32_no_reentrance : forall f, built f -> ~ reentrant f.
Proof. exact built_not_reentrant. Qed.
Print Assumptions C32_no_reentrance.

(** C32: the request to nest a section is refused exactly when the resource is
    already held there; otherwise the new section is added as the last one
    below the given section and nothing else changes. *)
Theorem C32_add_nested : forall held f i p c r l, path_to held f (i :: p) c ->
  (add_nested f i p r l = None <-> In r (held ++ [cs_res c])) /\
  (forall f', add_nested f i p r l = Some f' ->
     path_to (held ++ [cs_res c]) f' ((i :: p) ++ [length (cs_nested c)]) (CS r l []) /\
     Permutation (map (fun c => (cs_res c, cs_len c)) (cs_all f')) ((r, l) :: map (fun c => (cs_res c, cs_len c)) (cs_all f))).
Proof.
  intros held f i p c r l P. split; [apply add_none; exact P|]. intros f' A. split; [exact (add_position held f i p c r l f' P A)|].
  exact (add_forest_labels _ _ _ _ _ _ A).
Qed.
Print Assumptions C32_add_nested.

Example C32_case :
  all_flat forest1 = [(5, 10%Z, (-1)%Z); (3, 2%Z, 0%Z); (7, 1%Z, 1%Z); (9, 4%Z, 0%Z); (1, 6%Z, (-1)%Z)]
  /\ map cs_total forest1 = [17; 6]%Z
  /\ all_nesting_well_ordered forest1 = false
  /\ all_nesting_well_ordered [CS 1 3 [CS 2 1 []; CS 4 1 [CS 6 2 []]]]%Z = true
  /\ path_to [5; 3] forest1 [0; 0; 0] (CS 7 1 [])
  /\ add_nested forest1 0 [0; 0] 5 1 = None
  /\ add_nested forest1 0 [0; 0] 1 1 = Some [CS 5 10 [CS 3 2 [CS 7 1 [CS 1 1 []]]; CS 9 4 []]; CS 1 6 []]%Z
  /\ built [CS 4 2 [CS 1 1 []]]%Z.
Proof.
  repeat split; try reflexivity.
  - eapply path_down; [reflexivity|]. eapply path_down; [reflexivity|]. constructor. reflexivity.
  - apply built_nested with [CS 4 2 []] 0 [] 1 1%Z; [|reflexivity]. apply (built_outermost []). constructor.
Qed.

(** requests add up and reads are converted to writes without losing any *)
Theorem C32_requests : forall r len read prio,
  let r' := add_request r len read prio in
  max_requests r' = (max_requests r + 1)%Z /\ (max_length r <= max_length r')%Z /\ (len <= max_length r')%Z /\
  (max_length r' = max_length r \/ max_length r' = len) /\ rr_id r' = rr_id r /\
  rr_reads r' = (rr_reads r + if read then 1 else 0)%Z /\
  (rr_prio r' <= rr_prio r /\ rr_prio r' <= prio /\ (rr_prio r' = rr_prio r \/ rr_prio r' = prio))%Z /\
  let w := convert_reads_to_writes r in
  rr_writes w = max_requests r /\ max_requests w = max_requests r /\ rr_reads w = 0%Z /\ rr_rlen w = 0%Z /\
  ((0 <= rr_wlen r)%Z -> max_length w = max_length r) /\ rr_id w = rr_id r /\ rr_prio w = rr_prio r.
Proof.
  intros [id w rd wl rl pr] len read prio. unfold add_request, convert_reads_to_writes, max_requests, max_length. destruct read; cbn; repeat split; lia.
Qed.
Print Assumptions C32_requests.
Example C32_case_requests : add_request (Reqt 3 1 0 5 0 0) 7 true (-2) = Reqt 3 1 1 5 7 (-2) /\ convert_reads_to_writes (Reqt 3 1 1 5 7 (-2)) = Reqt 3 2 0 7 0 (-2).
Proof. split; reflexivity. Qed.
