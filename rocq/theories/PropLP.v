(** The variables of the LP-based blocking analyses (C49). *)
From Coq Require Import NArith ZArith QArith List Bool Lia.
From Verif Require Import ModelLP SpecLP ProofLP.
Import ListNotations.

(** A key gives back the variable it was made from. *)
Theorem C49_decode : forall v, in_range v ->
  get_task (encode_request v) = N.of_nat (v_task v) /\ get_res_id (encode_request v) = N.of_nat (v_res v) /\
  get_req_id (encode_request v) = N.of_nat (v_req v) /\ get_type (encode_request v) = btype_code (v_type v).
Proof. exact decode. Qed.
Print Assumptions C49_decode.

(** Whatever is looked up in whatever order: two lookups return the same index
    exactly if they name the same variable; the indices are exactly those below get_num_vars. *)
Theorem C49_indices : forall vs, (forall v, In v vs -> in_range v) ->
  let '(is, m) := lookups vs [] in
  length is = length vs /\
  (forall a b v w i j, nth_error vs a = Some v -> nth_error vs b = Some w -> nth_error is a = Some i -> nth_error is b = Some j -> (i = j <-> v = w)) /\
  (forall i, In i is <-> (i < get_num_vars m)%nat).
Proof.
  intros vs R. destruct (lookups vs []) as [is m] eqn:E.
  assert (P : forall n v i, nth_error vs n = Some v -> nth_error is n = Some i -> position (encode_request v) m = Some i).
  { intros n v i H1 H2. pose proof (lookups_positions vs [] n v i H1) as L. rewrite E in L. exact (L H2). }
  split; [|split].
  - rewrite <- (lookups_length vs []), E. reflexivity.
  - intros a b v w i j Ha Hb Ia Ib. specialize (P a v i Ha Ia) as Pv. specialize (P b w j Hb Ib) as Pw. split.
    + intros <-. apply position_some in Pv, Pw. rewrite Pv in Pw. injection Pw as Pw. apply encode_inj; [apply R; eapply nth_error_In; eassumption..|exact Pw].
    + intros <-. congruence.
  - intros i. split.
    + intros H. apply In_nth_error in H. destruct H as [n H]. destruct (nth_error vs n) as [v|] eqn:V.
      * apply (position_lt (encode_request v)). apply (P n); assumption.
      * apply nth_error_None in V. rewrite <- (lookups_length vs []), E in V. cbn in V. apply nth_error_None in V. congruence.
    + intros H. pose proof (lookups_dense vs [] i) as D. rewrite E in D. cbn in D. destruct (D ltac:(lia) H) as [n D']. eapply nth_error_In. exact D'.
Qed.
Print Assumptions C49_indices.
Example C49_indices_case :
  lookups [Var 1 0 0 BLOCKING_DIRECT; Var 1 0 0 BLOCKING_ARRIVAL; Var 1 0 0 BLOCKING_DIRECT; Var 0 1 0 BLOCKING_PREEMPT] [] =
  ([0; 1; 0; 2]%nat, [1073741824; 4611686019501129728; 9223372036854775809]%N).
Proof. vm_compute. reflexivity. Qed.

(** Later lookups do not change earlier indices. *)
Theorem C49_stable : forall vs ws m, fst (lookups (vs ++ ws) m) = fst (lookups vs m) ++ fst (lookups ws (snd (lookups vs m))) /\
  forall v, In v vs -> index_of (snd (lookups (vs ++ ws) m)) v = index_of (snd (lookups vs m)) v.
Proof.
  intros vs ws m. split.
  - revert m; induction vs as [|v r IH]; intros m; cbn [app lookups]; [reflexivity|]. destruct (lookup v m) as [i m1].
    specialize (IH m1). destruct (lookups (r ++ ws) m1) as [is2 m2]. destruct (lookups r m1) as [is3 m3]. cbn [fst snd] in *. rewrite IH. reflexivity.
  - intros v Hv. destruct (lookups_all vs m v Hv) as [i P]. rewrite (index_of_position _ _ _ P). apply index_of_position.
    assert (A : snd (lookups (vs ++ ws) m) = snd (lookups ws (snd (lookups vs m)))).
    { clear. revert m; induction vs as [|v r IH]; intros m; cbn [app lookups]; [reflexivity|]. destruct (lookup v m) as [i m1].
      specialize (IH m1). destruct (lookups (r ++ ws) m1) as [is2 m2]. destruct (lookups r m1) as [is3 m3]. exact IH. }
    rewrite A. destruct (lookups_ext ws (snd (lookups vs m))) as [ext [-> _]]. apply position_app. exact P.
Qed.
Print Assumptions C49_stable.

(** The program over column indices has the optimum of the intended program. *)
Theorem C49_optimum : forall vs lp opt, (forall v, In v (lp_vars lp) -> In v vs) -> (forall v, In v vs -> in_range v) ->
  optimum (indexed (snd (lookups vs [])) lp) opt <-> optimum lp opt.
Proof. exact optimum_indexed. Qed.
Print Assumptions C49_optimum.
Example C49_optimum_case :
  let v := Var 1 0 0 BLOCKING_DIRECT in let w := Var 1 0 0 BLOCKING_ARRIVAL in
  let lp := add_objective [(3%Q, v); (3%Q, w)] (add_inequality (add_var v ++ add_var w) 1 lp_empty) in
  optimum (indexed (snd (lookups [v; w] [])) lp) 3.
Proof.
  cbn zeta. apply C49_optimum.
  - intros u Hu. cbn in Hu. cbn. tauto.
  - intros u [<-|[<-|[]]]; repeat split.
  - split.
    + exists (fun u => match v_type u with BLOCKING_DIRECT => 1 | _ => 0 end). split; [|reflexivity]. constructor.
      * intros u. destruct (v_type u); split; discriminate.
      * intros u [].
      * intros e b [].
      * intros e b [H|[]]. injection H as <- <-. discriminate.
    + intros x [_ _ _ F]. specialize (F _ _ (or_introl eq_refl)). cbn in *. Lqa.lra.
Qed.

(** The assertions admit request numbers for which this fails. *)
Theorem C49_collision_refuted : exists v w, encode_asserts v = true /\ encode_asserts w = true /\ v_task v <> v_task w /\
  forall m, fst (lookup v m) = fst (lookup w (snd (lookup v m))).
Proof.
  exists (Var 1 0 0 BLOCKING_DIRECT), (Var 0 0 (N.to_nat (2 ^ 20)) BLOCKING_DIRECT).
  assert (E : encode_request (Var 0 0 (N.to_nat (2 ^ 20)) BLOCKING_DIRECT) = encode_request (Var 1 0 0 BLOCKING_DIRECT)).
  { unfold encode_request. cbn [v_task v_res v_req v_type]. rewrite N2Nat.id. vm_compute. reflexivity. }
  split; [vm_compute; reflexivity|]. split.
  - unfold encode_asserts. cbn [v_task v_res v_req v_type]. rewrite N2Nat.id. vm_compute. reflexivity.
  - split; [discriminate|]. intros m. destruct (lookup_spec (Var 1 0 0 BLOCKING_DIRECT) m) as [ext [_ [P _]]]. unfold lookup at 2. rewrite E. unfold var_for_key. rewrite P. reflexivity.
Qed.
Print Assumptions C49_collision_refuted.

(** The optimum is rounded to the nearest integer, so that a bound that holds for an integer is kept. *)
Theorem C49_rounding : forall q, nearest q (lrint q) /\ forall z, (inject_Z z <= q)%Q -> (z <= lrint q)%Z.
Proof. intros q. split; [apply lrint_nearest|intros z; apply lrint_mono]. Qed.
Print Assumptions C49_rounding.
Example C49_rounding_case : map lrint [5 # 2; 7 # 2; 9 # 4; 11 # 4; (-5) # 2]%Q = [2; 4; 2; 3; -2]%Z.
Proof. vm_compute. reflexivity. Qed.
