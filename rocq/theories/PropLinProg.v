(** C73, C74: linear programs. *)
From Coq Require Import QArith Qround Qabs String Ascii List Bool ZArith Lia Lqa.
From Verif Require Import ModelLinProg SpecLinProg ProofLinProg.
Import ListNotations.
Open Scope Q_scope.

(** ** C73 *)

(** Removing the variables that are forced to 0 keeps the optimum, if all
    coefficients of the constraints are positive and there is a feasible solution. *)
Theorem C73_kill_optimum : forall p p' x v, positive_coefficients p -> feasible p x -> kill_non_positive_vars p = Some p' -> (optimum p v <-> optimum p' v).
Proof.
  intros p p' x v PC FX KI. destruct (objective_function p) as [o|] eqn:E; [|unfold kill_non_positive_vars in KI; rewrite E in KI; discriminate].
  exact (kill_optimum p p' o x E KI PC FX v).
Qed.
Print Assumptions C73_kill_optimum.

(** A solution of the smaller program is one of the original program: evaluating
    the original objective yields the optimum, and evaluating any other vector of
    variables of the objective yields its value in a feasible solution. *)
Theorem C73_kill_solution : forall solver p o v, correct_solver solver -> six_decimals p -> positive_coefficients p ->
  objective_function p = Some o -> optimum p v ->
  exists p' s x, kill_non_positive_vars p = Some p' /\ solve_with_cplex solver p' = Some s /\ evaluate s o == v /\
    feasible p x /\ forall c, incl (map snd c) (map snd o) -> evaluate s c == value c x.
Proof.
  intros solver p o v CS SD PC OB OP. pose proof OP as [_ [_ [x0 [_ [FX _]]]]].
  assert (KI : exists p', kill_non_positive_vars p = Some p') by (unfold kill_non_positive_vars; rewrite OB; eexists; reflexivity). destruct KI as [p' KI].
  pose proof (kill_result p p' o OB KI) as KR. set (K := killed_vars p) in *. assert (OB' : objective_function p' = Some (filter_vars K o)) by (rewrite KR; reflexivity).
  destruct (solve_some solver p' _ OB') as [s HS].
  assert (SD' : six_decimals p').
  { intros c b I. rewrite KR in I. cbn [equalities inequalities] in I. apply in_app_or in I. destruct I as [I|I]; apply kill_in in I; destruct I as [c0 [I _]]; apply (SD c0 b); apply in_or_app; auto. }
  assert (OP' : optimum p' v) by (apply (kill_optimum p p' o x0 OB KI PC FX v); exact OP).
  assert (AS : forall w, In w (map snd o) -> assignment s w = zeroed K (solver (written p')) w).
  { intros w I. rewrite (solve_assignment solver p' _ s OB' HS w). unfold zeroed. destruct (is_killed K w) eqn:E.
    - destruct (is_killed (map snd (filter_vars K o)) w) eqn:E'; [|reflexivity]. exfalso. apply is_killed_iff in E'. apply in_map_iff in E'. destruct E' as [t [<- I']]. unfold filter_vars in I'. apply filter_In in I'. destruct I' as [_ I']. fold (is_killed K (snd t)) in I'. rewrite E in I'. discriminate.
    - assert (X : is_killed (map snd (filter_vars K o)) w = true).
      { apply is_killed_iff. apply in_map_iff in I. destruct I as [t [<- I]]. apply in_map. unfold filter_vars. apply filter_In. split; [exact I|]. fold (is_killed K (snd t)). rewrite E. reflexivity. }
      rewrite X. reflexivity. }
  exists p', s, (zeroed K (solver (written p'))). split; [exact KI|]. split; [exact HS|]. split.
  - rewrite evaluate_value. rewrite (value_ext o (assignment s) (zeroed K (solver (written p')))).
    + rewrite zeroed_value, <- (solve_optimum solver p' _ v s CS SD' OP' OB' HS), evaluate_value, (solve_value solver p' _ s OB' HS). reflexivity.
    + intros k w I. rewrite AS; [reflexivity|]. apply in_map_iff. exists (k, w). auto.
  - split.
    + apply (kill_back p p' o x0 OB KI PC FX). apply (written_feasible p' _ SD'). apply written_optimum in OP'; [|exact SD']. destruct (CS _ _ OP') as [o' [_ [F _]]]. exact F.
    + intros c IC. rewrite evaluate_value. apply value_ext. intros k w I. rewrite AS; [reflexivity|]. apply IC. apply in_map_iff. exists (k, w). auto.
Qed.
Print Assumptions C73_kill_solution.

(** maximize x + 2 y + z subject to x + y <= 4, 3 y = 6, z + 2 w <= 0 *)
Definition ex73 : linear_program :=
  LP [([(3, "y"%string)], 6)] [([(1, "x"); (1, "y")]%string, 4); ([(1, "z"); (2, "w")]%string, 0)] (Some [(1, "x"); (2, "y"); (1, "z")]%string) None "Maximize".

Example C73_case : positive_coefficients ex73 /\ six_decimals ex73 /\ optimum ex73 6 /\ exists p', kill_non_positive_vars ex73 = Some p' /\ objective_function p' = Some [(1, "x"); (2, "y")]%string.
Proof.
  split; [|split; [|split; [|eexists; split; reflexivity]]].
  - intros c b k w I J. cbn in I. repeat (destruct I as [I|I]; [injection I as <- <-; cbn in J; repeat (destruct J as [J|J]; [injection J as <- <-; reflexivity|]); destruct J|]). destruct I.
  - intros c b I. cbn in I. repeat (destruct I as [I|I]; [injection I as <- <-|]); [exists 6000000%Z|exists 4000000%Z|exists 0%Z|destruct I]; reflexivity.
  - split; [reflexivity|]. exists [(1, "x"); (2, "y"); (1, "z")]%string, (fun w => if String.eqb w "x" then 2 else if String.eqb w "y" then 2 else 0). split; [reflexivity|]. split; [|split; [reflexivity|]].
    + split; [intros w; destruct (String.eqb w "x"); [|destruct (String.eqb w "y")]; discriminate|]. split; intros c b I; cbn in I; repeat (destruct I as [I|I]; [injection I as <- <-; cbn; try reflexivity; discriminate|]); destruct I.
    + intros y [N [FE FI]]. pose proof (FE _ _ (or_introl eq_refl)) as E1. pose proof (FI _ _ (or_introl eq_refl)) as I1. pose proof (FI _ _ (or_intror (or_introl eq_refl))) as I2. pose proof (N "w"%string). pose proof (N "z"%string). cbn in *. lra.
Qed.

(** The hypotheses are needed: with a coefficient 0, or one that is negative, the
    optimum can become smaller, although the solution is feasible. *)
Theorem C73_zero_coefficient_refuted : exists p p', (forall c b k w, In (c, b) (equalities p ++ inequalities p) -> In (k, w) c -> 0 <= k) /\
  kill_non_positive_vars p = Some p' /\ optimum p 5 /\ optimum p' 0.
Proof.
  exists (LP [] [([(0, "x"%string)], 0); ([(1, "x"%string)], 5)] (Some [(1, "x"%string)]) None "Maximize"). eexists. split; [|split; [reflexivity|split]].
  - intros c b k w I J. cbn in I. destruct I as [I|[I|[]]]; injection I as <- <-; cbn in J; destruct J as [J|[]]; injection J as <- <-; lra.
  - split; [reflexivity|]. exists [(1, "x"%string)], (fun _ => 5). split; [reflexivity|]. split; [|split; [reflexivity|]].
    + split; [intros; discriminate|]. split; [intros c b []|]. intros c b I. cbn in I. destruct I as [I|[I|[]]]; injection I as <- <-; cbn; lra.
    + intros y [N [_ FI]]. pose proof (FI _ _ (or_intror (or_introl eq_refl))) as I1. cbn in *. lra.
  - split; [reflexivity|]. exists [], (fun _ => 0). split; [reflexivity|]. split; [|split; [reflexivity|]].
    + split; [intros; discriminate|]. split; intros c b [].
    + intros y _. cbn. lra.
Qed.
Print Assumptions C73_zero_coefficient_refuted.

Theorem C73_negative_coefficient_refuted : exists p p', (forall c b k w, In (c, b) (equalities p ++ inequalities p) -> In (k, w) c -> ~ k == 0) /\
  kill_non_positive_vars p = Some p' /\ optimum p 5 /\ optimum p' 0.
Proof.
  exists (LP [] [([(1, "y"); (-(1), "x")]%string, 0); ([(1, "x"%string)], 5)] (Some [(1, "y"%string)]) None "Maximize"). eexists. split; [|split; [reflexivity|split]].
  - intros c b k w I J. cbn in I. destruct I as [I|[I|[]]]; injection I as <- <-; cbn in J; [destruct J as [J|[J|[]]]|destruct J as [J|[]]]; injection J as <- <-; intros X; discriminate X.
  - split; [reflexivity|]. exists [(1, "y"%string)], (fun _ => 5). split; [reflexivity|]. split; [|split; [reflexivity|]].
    + split; [intros; discriminate|]. split; [intros c b []|]. intros c b I. cbn in I. destruct I as [I|[I|[]]]; injection I as <- <-; cbn; lra.
    + intros y [N [_ FI]]. pose proof (FI _ _ (or_introl eq_refl)) as I1. pose proof (FI _ _ (or_intror (or_introl eq_refl))) as I2. cbn in *. lra.
  - split; [reflexivity|]. exists [], (fun _ => 0). split; [reflexivity|]. split; [|split; [reflexivity|]].
    + split; [intros; discriminate|]. split; intros c b [].
    + intros y _. cbn. lra.
Qed.
Print Assumptions C73_negative_coefficient_refuted.

(** A program without a feasible solution can become one that has an optimum. *)
Theorem C73_infeasible_refuted : exists p p', positive_coefficients p /\ (forall x, ~ feasible p x) /\ kill_non_positive_vars p = Some p' /\ optimum p' 7.
Proof.
  exists (LP [([(1, "x"%string)], 3)] [([(1, "x"%string)], 0); ([(1, "y"%string)], 7)] (Some [(1, "y"%string)]) None "Maximize"). eexists. split; [|split; [|split; [reflexivity|]]].
  - intros c b k w I J. cbn in I. destruct I as [I|[I|[I|[]]]]; injection I as <- <-; cbn in J; destruct J as [J|[]]; injection J as <- <-; reflexivity.
  - intros x [N [FE FI]]. pose proof (FE _ _ (or_introl eq_refl)) as E1. pose proof (FI _ _ (or_introl eq_refl)) as I1. cbn in *. lra.
  - split; [reflexivity|]. exists [(1, "y"%string)], (fun _ => 7). split; [reflexivity|]. split; [|split; [reflexivity|]].
    + split; [intros; discriminate|]. split; [intros c b []|]. intros c b I. cbn in I. destruct I as [I|[]]; injection I as <- <-. cbn. lra.
    + intros y [N [_ FI]]. pose proof (FI _ _ (or_introl eq_refl)) as I1. cbn in *. lra.
Qed.
Print Assumptions C73_infeasible_refuted.

(** Bounds are written with six decimals: multiples of a millionth (so integers)
    are exact, others are off by at most half a millionth. *)
Theorem C73_written : (forall v n, v == inject_Z n / 1000000 -> percent_f v == v) /\ (forall v, Qabs (percent_f v - v) <= 1 # 2000000).
Proof. split; [exact percent_f_exact|exact percent_f_close]. Qed.
Print Assumptions C73_written.
Example C73_written_case : percent_f (7 # 2) == 7 # 2 /\ percent_f (1 # 3) == 333333 # 1000000 /\ percent_f (-(5 # 10000000)) == 0 /\ percent_f (15 # 10000000) == 2 # 1000000.
Proof. repeat split; vm_compute; reflexivity. Qed.

(** so the program that is solved can have a smaller optimum *)
Theorem C73_rounding_refuted : exists p v w, optimum p v /\ optimum (written p) w /\ w < v.
Proof.
  exists (LP [] [([(1, "x"%string)], 4 # 10000000)] (Some [(1, "x"%string)]) None "Maximize"), (4 # 10000000), 0. split; [|split; [|reflexivity]].
  - split; [reflexivity|]. exists [(1, "x"%string)], (fun _ => 4 # 10000000). split; [reflexivity|]. split; [|split; [reflexivity|]].
    + split; [intros; discriminate|]. split; [intros c b []|]. intros c b I. cbn in I. destruct I as [I|[]]; injection I as <- <-. cbn. lra.
    + intros y [N [_ FI]]. pose proof (FI _ _ (or_introl eq_refl)) as I1. cbn in *. lra.
  - split; [reflexivity|]. exists [(1, "x"%string)], (fun _ => 0). split; [reflexivity|]. split; [|split; [reflexivity|]].
    + split; [intros; discriminate|]. split; [intros c b []|]. intros c b I. cbn [written inequalities map fst snd] in I. destruct I as [I|[]]. injection I as <- <-. vm_compute. discriminate.
    + intros y [N [_ FI]]. pose proof (FI _ _ (or_introl eq_refl)) as I1. cbn [fst snd] in I1. assert (Z : percent_f (4 # 10000000) == 0) by reflexivity. rewrite Z in I1. cbn in *. lra.
Qed.
Print Assumptions C73_rounding_refuted.

(** ** C74 *)

(** Prefixing the variables of a program keeps its optimum. *)
Theorem C74_prefix : forall p p' pre v, apply_variable_prefix p pre = Some p' -> (optimum p v <-> optimum p' v).
Proof. intros p p' pre v H. exact (prefix_optimum p p' pre v H). Qed.
Print Assumptions C74_prefix.

(** Programs can be solved together: if each is given its own prefix, without
    underscores, and merged into an empty program, the optimum is the sum of the
    optima, and every optimal solution contains an optimal solution of each. *)
Theorem C74_combined : forall l vs, NoDup (map fst l) -> (forall pre q, In (pre, q) l -> no_underscore pre) -> l <> [] ->
  Forall2 (fun q v => optimum (snd q) v) l vs ->
  exists r o, combine_programs empty_program l = Some r /\ objective_function r = Some o /\ optimum r (qtotal vs) /\
    forall z, solves r o z (qtotal vs) -> Forall2 (fun q v => exists o', objective_function (snd q) = Some o' /\ solves (snd q) o' (fun w => z (fst q ++ "_" ++ w)%string) v) l vs.
Proof.
  intros l vs ND NU NE F2. assert (ME : maximal empty_program (fun _ => 0) 0).
  { split; [split; [intros; lra|split; intros c b []]|]. split; [reflexivity|]. intros y _. cbn. lra. }
  destruct (combine_maximal l empty_program (fun _ => 0) 0 eq_refl ME ND NU) with (vs := vs) as [r [x [HR [GR [MR PR]]]]]; [intros pre q w _ []|exact F2|].
  assert (OBR : exists o, objective_function r = Some o).
  { assert (G : forall l acc r, combine_programs acc l = Some r -> (objective_function acc <> None \/ l <> []) -> exists o, objective_function r = Some o).
    { clear. induction l as [|[pre q] l IH]; intros acc r H C; cbn [combine_programs] in H.
      - injection H as <-. destruct C as [C|C]; [|congruence]. destruct (objective_function acc) as [o|]; [exists o; reflexivity|congruence].
      - destruct (apply_variable_prefix q pre) as [q'|]; [|discriminate]. destruct (merge acc q') as [a|] eqn:E; [|discriminate]. apply (IH a r H). left. destruct (merge_inv _ _ _ E) as [GG O]. rewrite (merge_result _ _ GG O) in E. injection E as <-. discriminate. }
    apply (G l empty_program r HR). right. exact NE. }
  destruct OBR as [o OBR]. exists r, o. split; [exact HR|]. split; [exact OBR|].
  assert (Q : 0 + qtotal vs == qtotal vs) by lra. split.
  - split; [exact GR|]. exists o, x. split; [exact OBR|]. destruct MR as [A [B C]]. unfold objective_of in B, C. rewrite OBR in B, C. split; [exact A|]. split; [rewrite B; exact Q|]. intros y FY. specialize (C y FY). lra.
  - intros z [FZ [VZ _]]. destruct (PR z FZ) as [_ [_ F]]; [unfold objective_of; rewrite OBR, VZ, Q; reflexivity|].
    revert F. clear - F2. intros F. revert F2. induction F as [|q v l vs H F IH]; intros F2; [constructor|]. inversion F2 as [|? ? ? ? O F2']; subst. constructor; [|apply IH; exact F2'].
    destruct O as [_ [o' [_ [E _]]]]. exists o'. split; [exact E|]. unfold objective_of in H. rewrite E in H. exact H.
Qed.
Print Assumptions C74_combined.

(** two programs with the same variable: maximize x up to 3, and up to 4 *)
Definition ex74 (n : Q) : linear_program := LP [] [([(1, "x"%string)], n)] (Some [(1, "x"%string)]) None "Maximize".
Lemma ex74_optimum n : 0 <= n -> optimum (ex74 n) n.
Proof.
  intros H. split; [reflexivity|]. exists [(1, "x"%string)], (fun _ => n). split; [reflexivity|]. split; [|split; [cbn; lra|]].
  - split; [intros; exact H|]. split; [intros c b []|]. intros c b I. cbn in I. destruct I as [I|[]]; injection I as <- <-. cbn. lra.
  - intros y [N [_ FI]]. pose proof (FI _ _ (or_introl eq_refl)) as I1. cbn in *. lra.
Qed.
Example C74_case : let l := [("a", ex74 3); ("b", ex74 4)]%string in NoDup (map fst l) /\ (forall pre q, In (pre, q) l -> no_underscore pre) /\
  Forall2 (fun q v => optimum (snd q) v) l [3; 4] /\ exists r, combine_programs empty_program l = Some r /\ objective_function r = Some [(1, "a_x"); (1, "b_x")]%string.
Proof.
  cbv zeta. split; [cbn; repeat constructor; cbn; intuition discriminate|]. split; [|split; [repeat constructor; apply ex74_optimum; lra|eexists; split; reflexivity]].
  intros pre q [E|[E|[]]]; injection E as <- _; cbn; (split; [discriminate|exact I]).
Qed.

(** Without the condition on underscores the variables of different programs can
    coincide, and the optimum is less than the sum. *)
Theorem C74_collision_refuted : exists l r v w, NoDup (map fst l) /\ Forall2 (fun q v => optimum (snd q) v) l [v; w] /\ combine_programs empty_program l = Some r /\
  optimum r 6 /\ 6 < v + w.
Proof.
  exists [("a", LP [] [([(1, "b_x"%string)], 3)] (Some [(1, "b_x"%string)]) None "Maximize"); ("a_b", ex74 4)]%string. eexists. exists 3, 4.
  split; [cbn; repeat constructor; cbn; intuition discriminate|]. split; [|split; [reflexivity|split; [|reflexivity]]].
  - constructor; [|constructor; [apply ex74_optimum; lra|constructor]]. split; [reflexivity|]. exists [(1, "b_x"%string)], (fun _ => 3). split; [reflexivity|]. split; [|split; [reflexivity|]].
    + split; [intros; discriminate|]. split; [intros c b []|]. intros c b I. cbn in I. destruct I as [I|[]]; injection I as <- <-. cbn. lra.
    + intros y [N [_ FI]]. pose proof (FI _ _ (or_introl eq_refl)) as I1. cbn in *. lra.
  - split; [reflexivity|]. exists [(1, "a_b_x"); (1, "a_b_x")]%string, (fun _ => 3). split; [reflexivity|]. split; [|split; [reflexivity|]].
    + split; [intros; discriminate|]. split; [intros c b []|]. intros c b I. cbn in I. destruct I as [I|[I|[]]]; injection I as <- <-; cbn; lra.
    + intros y [N [_ FI]]. pose proof (FI _ _ (or_introl eq_refl)) as I1. cbn in *. lra.
Qed.
Print Assumptions C74_collision_refuted.
