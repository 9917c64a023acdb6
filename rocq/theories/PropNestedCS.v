(** C66: the nested critical sections handed to the native code. *)
From Coq Require Import ZArith List Bool Arith Relations Lia Sorted Permutation.
From Verif Require Import ModelResources SpecResources ProofResources ProofSections ModelNestedCS ProofNestedCS.
Import ListNotations.
Local Open Scope nat_scope.

(** C66: the conversion of every nesting forest succeeds.  The sections of a task
    are its positions in the order of C32.  For each of them the native code
    finds, within as many steps as there are sections: exactly the resources held
    when it is requested, its outermost section, and whether it contains others. *)
Theorem C66_sections : forall f, exists t ps, get_cpp_nested_cs_model [f] = Some [t] /\
  StronglySorted before ps /\ (forall p, In p ps <-> exists held c, path_to held f p c) /\ length ps = length t /\
  forall k p held c fuel, nth_error ps k = Some p -> path_to held f p c -> length t <= fuel -> exists s,
    nth_error t k = Some s /\ n_res s = cs_res c /\ n_len s = cs_len c /\
    get_outer_locks fuel s t = Some held /\
    (exists j, get_outermost fuel t (Z.of_nat k) = Some (Z.of_nat j) /\ nth_error ps j = Some (firstn 1 p)) /\
    (has_nested_requests t k = true <-> cs_nested c <> []) /\
    (forall other, exists b, has_common_outer fuel s t other = Some b /\ (b = true <-> exists r, In r held /\ In r other)).
Proof.
  intros f. destruct (model_of_forest f) as [t [ps [A [E [L At]]]]]. exists t, ps. split; [|split; [exact (proj1 E)|split; [exact (proj2 E)|split; [exact L|]]]].
  - cbn. rewrite A. reflexivity.
  - intros k p held c fuel Hk P F. assert (Hl : k < length t) by (rewrite <- L; apply nth_error_Some; congruence).
    destruct (at_index f t ps L At k p held c Hk P) as [s [Hs [R [Ln _]]]].
    exists s. split; [exact Hs|]. split; [exact R|]. split; [exact Ln|]. split; [|split; [|split]].
    + unfold get_outer_locks. rewrite (outer_loop f t ps L At k p held c s fuel [] Hk P Hs) by lia. rewrite app_nil_r. reflexivity.
    + apply (outermost_spec f t ps L At k p held c fuel Hk P). lia.
    + exact (nested_requests_spec f t ps E L At k p held c Hk P).
    + intros other. apply (common_loop f t ps L At k p held c s fuel other Hk P Hs). lia.
Qed.
Print Assumptions C66_sections.

(** C66: for every task set and whatever the order in which hash maps are
    visited, the nesting relation is computed in finitely many steps; it has an
    entry for exactly the requested resources; it relates only resources linked
    by a chain of nestings; and, if no resource is nested inside itself through
    any such chain, it relates all of them. *)
Theorem C66_transitive : forall tasks, exists ts, get_cpp_nested_cs_model tasks = Some ts /\
  forall order, (forall l, Permutation (order l) l) -> exists n, forall fuel, n <= fuel ->
  exists m, get_transitive_nesting_relationship fuel order ts = Some m /\
    (forall q, m q <> None <-> requested tasks q) /\
    (forall q r, In r (nget m q) -> clos_trans nat (requested_inside tasks) q r) /\
    ((forall q, ~ clos_trans nat (requested_inside tasks) q q) ->
     forall q r, clos_trans nat (requested_inside tasks) q r -> In r (nget m q)).
Proof.
  intros tasks. destruct (model_of_tasks tasks) as [ts [E _]]. exists ts. split; [exact E|]. intros order O.
  exists (S (length (nest_keys ts))). intros fuel F. exact (transitive_spec tasks ts order fuel E O F).
Qed.
Print Assumptions C66_transitive.

(** C66: in particular for tasks that pass the order check of the Python model;
    the resources nested in a resource then have larger ids. *)
Theorem C66_well_ordered : forall tasks, (forall f, In f tasks -> all_nesting_well_ordered f = true) ->
  exists ts, get_cpp_nested_cs_model tasks = Some ts /\
  forall order, (forall l, Permutation (order l) l) -> exists n, forall fuel, n <= fuel ->
  exists m, get_transitive_nesting_relationship fuel order ts = Some m /\
    (forall q r, In r (nget m q) <-> clos_trans nat (requested_inside tasks) q r) /\
    (forall q r, In r (nget m q) -> q < r).
Proof.
  intros tasks W. destruct (C66_transitive tasks) as [ts [E H]]. exists ts. split; [exact E|]. intros order O.
  destruct (H order O) as [n Hn]. exists n. intros fuel F. destruct (Hn fuel F) as [m [A [_ [S C]]]]. exists m. split; [exact A|].
  pose proof (well_ordered_acyclic tasks W) as Lt. split.
  - intros q r. split; [apply S|apply C]. intros x Hx. pose proof (Lt x x Hx). lia.
  - intros q r Hr. apply Lt, S, Hr.
Qed.
Print Assumptions C66_well_ordered.

(** a task that holds 1 and 2 while it requests 3, and one that requests 4 in 3 *)
Definition nest_f1 : list csec := [CS 1 2 [CS 2 1 [CS 3 5 []]; CS 4 1 []]; CS 3 2 []].
Definition nest_f2 : list csec := [CS 3 1 [CS 4 7 []]].
Example C66_case : (forall f, In f [nest_f1; nest_f2] -> all_nesting_well_ordered f = true) /\
  exists t1 t2, get_cpp_nested_cs_model [nest_f1; nest_f2] = Some [t1; t2] /\
  t1 = [NCS 1 2 (-1); NCS 2 1 0; NCS 3 5 1; NCS 4 1 0; NCS 3 2 (-1)] /\ t2 = [NCS 3 1 (-1); NCS 4 7 0] /\
  get_outer_locks 5 (NCS 3 5 1) t1 = Some [1; 2] /\ get_outermost 5 t1 2 = Some 0%Z /\ has_nested_requests t1 0 = true /\ has_nested_requests t1 2 = false /\
  exists m, get_transitive_nesting_relationship 6 (fun l => l) [t1; t2] = Some m /\
    map (fun q => nodup Nat.eq_dec (nget m q)) [1; 2; 3; 4] = [[4; 3; 2]; [4; 3]; [4]; []].
Proof.
  split; [intros f [<-|[<-|[]]]; reflexivity|]. do 2 eexists. split; [vm_compute; reflexivity|]. do 2 (split; [reflexivity|]).
  do 4 (split; [reflexivity|]). eexists. split; [vm_compute; reflexivity|]. reflexivity.
Qed.

(** C66: with a cycle the result is incomplete, and it depends on the order in
    which the hash map is visited: each of 1 and 2 is nested in itself through
    the other one, but one order misses 1 in 1 and another one 2 in 2. *)
Theorem C66_cyclic_incomplete : exists tasks ts, get_cpp_nested_cs_model tasks = Some ts /\
  (forall q r, In q [1; 2] -> In r [1; 2] -> clos_trans nat (requested_inside tasks) q r) /\
  forall fuel, 4 <= fuel ->
  (exists m, get_transitive_nesting_relationship fuel (fun l => l) ts = Some m /\ ~ In 1 (nget m 1)) /\
  (exists m, get_transitive_nesting_relationship fuel (@rev nat) ts = Some m /\ ~ In 2 (nget m 2)).
Proof.
  exists [[CS 1 1 [CS 2 1 []]]; [CS 2 1 [CS 1 1 []]]]. eexists. split; [vm_compute; reflexivity|]. split; [|].
  - assert (A : requested_inside [[CS 1 1 [CS 2 1 []]]; [CS 2 1 [CS 1 1 []]]] 1 2).
    { exists [CS 1 1 [CS 2 1 []]], (CS 1 1 [CS 2 1 []]), (CS 2 1 []). split; [left; reflexivity|]. split; [exists (CS 1 1 [CS 2 1 []]); split; [left; reflexivity|constructor]|].
      split; [constructor; left; reflexivity|split; reflexivity]. }
    assert (B : requested_inside [[CS 1 1 [CS 2 1 []]]; [CS 2 1 [CS 1 1 []]]] 2 1).
    { exists [CS 2 1 [CS 1 1 []]], (CS 2 1 [CS 1 1 []]), (CS 1 1 []). split; [right; left; reflexivity|]. split; [exists (CS 2 1 [CS 1 1 []]); split; [left; reflexivity|constructor]|].
      split; [constructor; left; reflexivity|split; reflexivity]. }
    intros q r [<-|[<-|[]]] [<-|[<-|[]]].
    + apply t_trans with 2; apply t_step; assumption.
    + apply t_step, A.
    + apply t_step, B.
    + apply t_trans with 1; apply t_step; assumption.
  - intros fuel F. do 4 (destruct fuel as [|fuel]; [lia|]). split; eexists; (split; [reflexivity|]); cbv; intuition discriminate.
Qed.
Print Assumptions C66_cyclic_incomplete.

(** C66: the test whether two sections of two tasks are requested under a common
    outer resource follows the index of the other section in the sections of
    this task (nested_cs.h:54-55): it can miss a common resource, report one
    that does not exist, or read out of bounds. *)
Theorem C66_common_outer_refuted : exists f g ta tb, get_cpp_nested_cs_model [f; g] = Some [ta; tb] /\
  (** the section of 9 is requested under 1 in both tasks, but not found *)
  (exists a b, nth_error ta 1 = Some a /\ nth_error tb 3 = Some b /\
     path_to [1] f [0; 0] (CS 9 1 []) /\ path_to [1] g [1; 0] (CS 9 1 []) /\
     forall fuel, 4 <= fuel -> has_common_outer_cs fuel a ta b tb = Some false) /\
  (** no resource is held in common, but one is found *)
  (exists a b, nth_error ta 3 = Some a /\ nth_error tb 1 = Some b /\
     path_to [2] f [1; 0] (CS 9 1 []) /\ path_to [1] g [0; 0] (CS 8 1 []) /\
     forall fuel, 4 <= fuel -> has_common_outer_cs fuel a ta b tb = Some true) /\
  (** the index of the other section does not exist in this task *)
  (exists a b, nth_error ta 1 = Some a /\ nth_error tb 5 = Some b /\
     path_to [1] f [0; 0] (CS 9 1 []) /\ path_to [7] g [2; 0] (CS 8 1 []) /\
     forall fuel, 4 <= fuel -> has_common_outer_cs fuel a ta b tb = None).
Proof.
  exists [CS 1 1 [CS 9 1 []]; CS 2 1 [CS 9 1 []]], [CS 1 1 [CS 8 1 []]; CS 1 1 [CS 9 1 []]; CS 7 1 [CS 8 1 []]]. do 2 eexists.
  split; [vm_compute; reflexivity|]. split; [|split]; do 2 eexists; (split; [reflexivity|]); (split; [reflexivity|]);
    (split; [eapply path_down; [reflexivity|]; constructor; reflexivity|]); (split; [eapply path_down; [reflexivity|]; constructor; reflexivity|]);
    intros fuel F; do 4 (destruct fuel as [|fuel]; [lia|]); reflexivity.
Qed.
Print Assumptions C66_common_outer_refuted.

(** C66: for two sections of the same task it only tells whether both are nested
    in anything, not whether they have an enclosing resource in common. *)
Theorem C66_common_outer_same_task : forall f, exists t ps, get_cpp_nested_cs_model [f] = Some [t] /\
  (forall p, In p ps <-> exists held c, path_to held f p c) /\
  forall k p held c k' p' held' c' fuel s s', nth_error ps k = Some p -> path_to held f p c -> nth_error ps k' = Some p' -> path_to held' f p' c' ->
    nth_error t k = Some s -> nth_error t k' = Some s' -> length t <= fuel ->
    exists b, has_common_outer_cs fuel s t s' t = Some b /\
      (b = true <-> held <> [] /\ held' <> []).
Proof.
  intros f. destruct (C66_sections f) as [t [ps [A [_ [P [L H]]]]]]. exists t, ps. split; [exact A|]. split; [exact P|].
  intros k p held c k' p' held' c' fuel s s' Hk Pk Hk' Pk' Hs Hs' F.
  destruct (H k p held c fuel Hk Pk F) as [s0 [E [_ [_ [O _]]]]]. rewrite Hs in E. injection E as <-.
  destruct (H k' p' held' c' fuel Hk' Pk' F) as [s0 [E [_ [_ [O' [_ [_ C]]]]]]]. rewrite Hs' in E. injection E as <-.
  assert (G : forall s held, get_outer_locks fuel s t = Some held -> is_outermost s = true <-> held = []).
  { clear. intros s held G. unfold get_outer_locks, is_outermost in *. destruct (Z.eqb_spec (n_outer s) (-1)) as [E|E].
    - rewrite E in G. destruct fuel; cbn in G; split; congruence.
    - split; [discriminate|]. intros ->. exfalso. destruct fuel as [|fuel]; cbn in G; destruct (Z.eqb_spec (n_outer s) (-1)); try congruence.
      destruct (cs_at t (n_outer s)) as [p|]; [|discriminate].
      assert (M : forall fuel i acc l, outer_locks_loop fuel t i acc = Some l -> length acc <= length l).
      { clear. induction fuel as [|fuel IH]; intros i acc l; cbn; destruct (Z.eqb i (-1)); try congruence; [intros G; injection G as <-; lia|intros G; injection G as <-; lia|].
        destruct (cs_at t i); [|discriminate]. intros G. apply IH in G. cbn in G. lia. }
      apply M in G. cbn in G. lia. }
  pose proof (G s held O) as G1. pose proof (G s' held' O') as G2. unfold has_common_outer_cs.
  destruct (is_outermost s); cbn [orb].
  - exists false. split; [reflexivity|]. split; [discriminate|]. intros [X _]. tauto.
  - destruct (is_outermost s').
    + exists false. split; [reflexivity|]. split; [discriminate|]. intros [_ X]. tauto.
    + rewrite O'. destruct (C held') as [b [B1 B2]]. exists b. split; [exact B1|]. rewrite B2. split.
      * intros _. split; intros X; [apply G1 in X|apply G2 in X]; discriminate.
      * intros [_ X]. destruct held' as [|r l]; [congruence|]. exists r. split; left; reflexivity.
Qed.
Print Assumptions C66_common_outer_same_task.
