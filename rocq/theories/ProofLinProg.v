(** Lemmas about linear programs (C73, C74). *)
From Coq Require Import QArith Qround Qabs String Ascii List Bool ZArith Lia Lqa.
From Verif Require Import ModelLinProg SpecLinProg.
Import ListNotations.
Open Scope Q_scope.

Lemma value_cons k w c x : value ((k, w) :: c) x = k * x w + value c x.
Proof. reflexivity. Qed.

Lemma value_app a b x : value (a ++ b) x == value a x + value b x.
Proof. induction a as [|[k w] a IH]; cbn [app]; [cbn; lra|]. rewrite !value_cons, IH. lra. Qed.

Lemma value_ext c x y : (forall k w, In (k, w) c -> x w == y w) -> value c x == value c y.
Proof.
  induction c as [|[k w] c IH]; intros H; [reflexivity|]. rewrite !value_cons, IH by (intros; eapply H; right; eassumption). rewrite (H k w) by (left; reflexivity). reflexivity.
Qed.

Lemma value_zero c x : (forall k w, In (k, w) c -> x w == 0) -> value c x == 0.
Proof. intros H. induction c as [|[k w] c IH]; [reflexivity|]. rewrite value_cons, IH by (intros; eapply H; right; eassumption). rewrite (H k w) by (left; reflexivity). lra. Qed.

Lemma value_nonneg c x : (forall k w, In (k, w) c -> 0 < k) -> (forall v, 0 <= x v) -> 0 <= value c x.
Proof.
  intros H N. induction c as [|[k w] c IH]; [cbn; lra|]. rewrite value_cons. specialize (IH (fun k w I => H k w (or_intror I))). specialize (H k w (or_introl eq_refl)). specialize (N w). nra.
Qed.

Lemma term_le c x k w : (forall k w, In (k, w) c -> 0 < k) -> (forall v, 0 <= x v) -> In (k, w) c -> k * x w <= value c x.
Proof.
  intros H N. induction c as [|[k' w'] c IH]; [intros []|]. intros [E|I]; rewrite value_cons.
  - injection E as -> ->. assert (X : 0 <= value c x) by (apply value_nonneg; [intros a b I; exact (H a b (or_intror I))|exact N]). lra.
  - specialize (IH (fun a b J => H a b (or_intror J)) I). specialize (H k' w' (or_introl eq_refl)). specialize (N w'). nra.
Qed.

(** ** Killed variables *)

Definition is_killed (K : list string) (w : string) : bool := existsb (String.eqb w) K.

Lemma is_killed_iff K w : is_killed K w = true <-> In w K.
Proof.
  unfold is_killed. rewrite existsb_exists. split; [intros [y [I E]]; apply String.eqb_eq in E; subst; exact I|intros I; exists w; split; [exact I|apply String.eqb_refl]].
Qed.

Lemma filter_value K c x : (forall w, In w K -> x w == 0) -> value (filter_vars K c) x == value c x.
Proof.
  intros H. induction c as [|[k w] c IH]; [reflexivity|]. unfold filter_vars in *. cbn [filter snd]. fold (is_killed K w). destruct (is_killed K w) eqn:E; cbn [negb]; rewrite !value_cons, ?IH.
  - apply is_killed_iff in E. rewrite (H w E). lra.
  - reflexivity.
Qed.

Definition zeroed (K : list string) (y : string -> Q) (w : string) : Q := if is_killed K w then 0 else y w.

Lemma zeroed_value K c y : value c (zeroed K y) == value (filter_vars K c) y.
Proof.
  induction c as [|[k w] c IH]; [reflexivity|]. unfold filter_vars in *. cbn [filter snd]. rewrite value_cons, IH. unfold zeroed. fold (is_killed K w). destruct (is_killed K w); cbn [negb]; [lra|]. rewrite value_cons. reflexivity.
Qed.

Lemma Qle_bool_false a b : Qle_bool a b = false <-> b < a.
Proof.
  split; intros H.
  - destruct (Qlt_le_dec b a) as [L|L]; [exact L|]. apply Qle_bool_iff in L. congruence.
  - destruct (Qle_bool a b) eqn:E; [|reflexivity]. apply Qle_bool_iff in E. lra.
Qed.

Lemma killed_in p w : In w (killed_vars p) <-> exists c b k, In (c, b) (equalities p ++ inequalities p) /\ b <= 0 /\ In (k, w) c.
Proof.
  unfold killed_vars. rewrite in_flat_map. split.
  - intros [[c b] [I H]]. cbn [fst snd] in H. destruct (Qle_bool b 0) eqn:E; [|destruct H]. apply in_map_iff in H. destruct H as [[k w'] [<- J]]. apply Qle_bool_iff in E. exists c, b, k. auto.
  - intros [c [b [k [I [L J]]]]]. exists (c, b). split; [exact I|]. cbn [fst snd]. apply Qle_bool_iff in L. rewrite L. apply in_map_iff. exists (k, w). auto.
Qed.

Lemma kill_in K cs c' b : In (c', b) (kill_constraints K cs) <-> exists c, In (c, b) cs /\ 0 < b /\ c' = filter_vars K c /\ c' <> [].
Proof.
  unfold kill_constraints. rewrite filter_In, in_map_iff. split.
  - intros [[[c b'] [E I]] N]. cbn [fst snd] in E. injection E as E <-. apply filter_In in I. destruct I as [I H]. cbn [fst snd] in H, N. apply negb_true_iff, Qle_bool_false in H.
    exists c. subst c'. split; [exact I|split; [exact H|split; [reflexivity|intros X; rewrite X in N; discriminate]]].
  - intros [c [I [L [E N]]]]. split; [|destruct c'; [contradiction|reflexivity]]. exists (c, b). cbn [fst snd]. split; [rewrite E; reflexivity|]. apply filter_In. split; [exact I|]. cbn [snd]. apply Qle_bool_false in L. rewrite L. reflexivity.
Qed.

Section Kill.
  Variables (p p' : linear_program) (o : vector) (x0 : string -> Q).
  Hypothesis OB : objective_function p = Some o.
  Hypothesis KI : kill_non_positive_vars p = Some p'.
  Hypothesis PC : positive_coefficients p.
  Hypothesis FX : feasible p x0.
  Let K := killed_vars p.

  Lemma kill_zero x w : feasible p x -> In w K -> x w == 0.
  Proof.
    intros [N [FE FI]] H. apply killed_in in H. destruct H as [c [b [k [I [L J]]]]].
    assert (V : value c x <= 0). { apply in_app_or in I. destruct I as [I|I]; [rewrite (FE _ _ I)|eapply Qle_trans; [apply (FI _ _ I)|]]; exact L. }
    assert (P : forall k w, In (k, w) c -> 0 < k) by (intros a d D; eapply PC; eassumption).
    pose proof (term_le c x k w P N J). specialize (P k w J). specialize (N w). nra.
  Qed.

  Lemma kill_result : p' = LP (kill_constraints K (equalities p)) (kill_constraints K (inequalities p)) (Some (filter_vars K o)) (option_map (filter_vars K) (local_objective p)) (goal p).
  Proof. unfold kill_non_positive_vars in KI. rewrite OB in KI. injection KI as <-. reflexivity. Qed.

  Lemma kill_feasible x : feasible p x -> feasible p' x.
  Proof.
    intros F. assert (Z : forall w, In w K -> x w == 0) by (intros w; apply kill_zero; exact F). destruct F as [N [FE FI]]. rewrite kill_result. split; [exact N|]. cbn [equalities inequalities]. split; intros c b H; apply kill_in in H; destruct H as [c0 [I [_ [-> _]]]]; rewrite (filter_value K c0 x Z); [apply FE|apply FI]; exact I.
  Qed.

  Lemma all_killed c b : In (c, b) (equalities p ++ inequalities p) -> b <= 0 -> forall y, value c (zeroed K y) == 0.
  Proof.
    intros I L y. apply value_zero. intros k w J. unfold zeroed. assert (E : is_killed K w = true) by (apply is_killed_iff, killed_in; exists c, b, k; auto). rewrite E. reflexivity.
  Qed.

  Lemma zeroed_self x : feasible p x -> forall c, value c x == value c (zeroed K x).
  Proof. intros F c. apply value_ext. intros k w _. unfold zeroed. destruct (is_killed K w) eqn:E; [apply kill_zero; [exact F|apply is_killed_iff; exact E]|reflexivity]. Qed.

  Lemma kill_back y : feasible p' y -> feasible p (zeroed K y).
  Proof.
    rewrite kill_result. intros [N [FE FI]]. cbn [equalities inequalities] in FE, FI. pose proof FX as [_ [XE XI]]. split; [|split].
    - intros v. unfold zeroed. destruct (is_killed K v); [lra|apply N].
    - intros c b I. destruct (Qlt_le_dec 0 b) as [L|L].
      + rewrite zeroed_value. destruct (filter_vars K c) as [|t r] eqn:E.
        * exfalso. specialize (XE c b I). rewrite (zeroed_self x0 FX c), zeroed_value, E in XE. cbn in XE. lra.
        * apply FE. apply kill_in. exists c. rewrite E. split; [exact I|split; [exact L|split; [reflexivity|discriminate]]].
      + assert (I' : In (c, b) (equalities p ++ inequalities p)) by (apply in_or_app; left; exact I).
        specialize (XE c b I). rewrite (zeroed_self x0 FX c), (all_killed c b I' L) in XE. rewrite (all_killed c b I' L). exact XE.
    - intros c b I. destruct (Qlt_le_dec 0 b) as [L|L].
      + rewrite zeroed_value. destruct (filter_vars K c) as [|t r] eqn:E; [cbn; lra|]. apply FI. apply kill_in. exists c. rewrite E. split; [exact I|split; [exact L|split; [reflexivity|discriminate]]].
      + assert (I' : In (c, b) (equalities p ++ inequalities p)) by (apply in_or_app; right; exact I).
        specialize (XI c b I). rewrite (zeroed_self x0 FX c), (all_killed c b I' L) in XI. rewrite (all_killed c b I' L). exact XI.
  Qed.

  Lemma kill_optimum v : optimum p v <-> optimum p' v.
  Proof.
    split; intros [G [o' [x [E [F [V M]]]]]].
    - rewrite OB in E. injection E as <-. split; [rewrite kill_result; exact G|]. exists (filter_vars K o), x. split; [rewrite kill_result; reflexivity|]. split; [apply kill_feasible; exact F|]. split.
      + rewrite filter_value; [exact V|]. intros w. apply kill_zero. exact F.
      + intros y FY. rewrite <- zeroed_value. apply M. apply kill_back. exact FY.
    - rewrite kill_result in E. cbn [objective_function] in E. injection E as <-. split; [rewrite kill_result in G; exact G|]. exists o, (zeroed K x). split; [exact OB|]. split; [apply kill_back; exact F|]. split; [rewrite zeroed_value; exact V|].
      intros y FY. rewrite <- (filter_value K o y) by (intros w; apply kill_zero; exact FY). apply M. apply kill_feasible. exact FY.
  Qed.
End Kill.

(** ** Rounding *)

Lemma percent_f_exact v n : v == inject_Z n / 1000000 -> percent_f v == v.
Proof.
  intros E. unfold percent_f. cbv zeta. assert (S : v * 1000000 == inject_Z n) by (rewrite E; field).
  assert (F : Qfloor (v * 1000000) = n) by (rewrite (Qfloor_comp _ _ S); apply Qfloor_Z). rewrite F.
  assert (D : v * 1000000 - inject_Z n == 0) by (rewrite S; lra).
  assert (B : Qle_bool (1 # 2) (v * 1000000 - inject_Z n) = false) by (apply Qle_bool_false; rewrite D; lra). rewrite B. cbn [negb]. rewrite E. reflexivity.
Qed.

Lemma percent_f_close v : Qabs (percent_f v - v) <= 1 # 2000000.
Proof.
  unfold percent_f. cbv zeta. set (s := v * 1000000). set (f := Qfloor s). pose proof (Qfloor_le s) as L. pose proof (Qlt_floor s) as U. fold f in L, U. rewrite inject_Z_plus in U. change (inject_Z 1) with 1 in U.
  set (r := if negb _ then _ else _). assert (R : -(1 # 2) <= inject_Z r - s <= 1 # 2).
  { unfold r. destruct (Qle_bool (1 # 2) (s - inject_Z f)) eqn:E1; cbn [negb].
    - apply Qle_bool_iff in E1. destruct (Qle_bool (s - inject_Z f) (1 # 2)) eqn:E2; cbn [negb].
      + apply Qle_bool_iff in E2. destruct (Z.even f); rewrite ?inject_Z_plus; change (inject_Z 1) with 1; lra.
      + apply Qle_bool_false in E2. rewrite inject_Z_plus. change (inject_Z 1) with 1. lra.
    - apply Qle_bool_false in E1. lra. }
  assert (X : inject_Z r / 1000000 - v == (inject_Z r - s) / 1000000) by (unfold s; field). rewrite X. apply Qabs_Qle_condition. unfold Qdiv. change (/ 1000000) with (1 # 1000000). lra.
Qed.

Lemma written_feasible p x : six_decimals p -> (feasible (written p) x <-> feasible p x).
Proof.
  intros S. assert (PF : forall c b, In (c, b) (equalities p ++ inequalities p) -> percent_f b == b) by (intros c b I; destruct (S c b I) as [n E]; apply (percent_f_exact b n E)).
  unfold feasible, written. cbn [equalities inequalities]. split; intros [N [FE FI]]; (split; [exact N|]); split; intros c b I.
  - rewrite <- (PF c b) by (apply in_or_app; left; exact I). apply FE. apply in_map_iff. exists (c, b). auto.
  - rewrite <- (PF c b) by (apply in_or_app; right; exact I). apply FI. apply in_map_iff. exists (c, b). auto.
  - apply in_map_iff in I. destruct I as [[c' b'] [E I]]. cbn [fst snd] in E. injection E as <- <-. rewrite (PF c' b') by (apply in_or_app; left; exact I). apply FE. exact I.
  - apply in_map_iff in I. destruct I as [[c' b'] [E I]]. cbn [fst snd] in E. injection E as <- <-. rewrite (PF c' b') by (apply in_or_app; right; exact I). apply FI. exact I.
Qed.

Lemma written_optimum p v : six_decimals p -> (optimum (written p) v <-> optimum p v).
Proof.
  intros S. unfold optimum, solves. cbn [written objective_function goal]. split; intros [G [o [x [E [F [V M]]]]]]; (split; [exact G|]); exists o, x; (split; [exact E|]).
  - split; [exact (proj1 (written_feasible p x S) F)|]. split; [exact V|]. intros y FY. apply M. exact (proj2 (written_feasible p y S) FY).
  - split; [exact (proj2 (written_feasible p x S) F)|]. split; [exact V|]. intros y FY. apply M. exact (proj1 (written_feasible p y S) FY).
Qed.

(** ** Evaluation *)

Definition assignment (s : solution) (w : string) : Q := match lookup s w with Some x => x | None => 0 end.

Lemma evaluate_value s c : evaluate s c == value c (assignment s).
Proof.
  unfold evaluate. assert (G : forall n, fold_left (fun value p => match lookup s (snd p) with Some x => value + fst p * x | None => value end) c n == n + value c (assignment s)).
  { induction c as [|[k w] c IH]; intros n; cbn [fold_left fst snd]; [cbn; lra|]. rewrite IH, value_cons. unfold assignment at 2. destruct (lookup s w); lra. }
  rewrite G. lra.
Qed.

Lemma lookup_map (f : string -> Q) (o : vector) w : lookup (map (fun t => (snd t, f (snd t))) o) w = if is_killed (map snd o) w then Some (f w) else None.
Proof.
  induction o as [|[k v] o IH]; [reflexivity|]. cbn [map lookup snd is_killed existsb]. destruct (String.eqb_spec w v) as [->|N]; [reflexivity|]. cbn [orb]. rewrite IH. reflexivity.
Qed.

Lemma solve_assignment solver p o s : objective_function p = Some o -> solve_with_cplex solver p = Some s ->
  forall w, assignment s w = if is_killed (map snd o) w then solver (written p) w else 0.
Proof.
  intros E H w. unfold solve_with_cplex in H. rewrite E in H. destruct o as [|t o]; [injection H as <-; reflexivity|].
  assert (H' : s = map (fun t => (snd t, solver (written p) (snd t))) (t :: o)) by congruence. rewrite H'. unfold assignment. rewrite (lookup_map (solver (written p)) (t :: o) w). destruct (is_killed _ w); reflexivity.
Qed.

Lemma solve_value solver p o s : objective_function p = Some o -> solve_with_cplex solver p = Some s -> value o (assignment s) == value o (solver (written p)).
Proof.
  intros E H. apply value_ext. intros k w I. rewrite (solve_assignment solver p o s E H). assert (X : is_killed (map snd o) w = true) by (apply is_killed_iff; apply in_map_iff; exists (k, w); auto). rewrite X. reflexivity.
Qed.

Lemma solve_some solver p o : objective_function p = Some o -> exists s, solve_with_cplex solver p = Some s.
Proof. intros E. unfold solve_with_cplex. rewrite E. destruct o; eexists; reflexivity. Qed.

Lemma solve_optimum solver p o v s : correct_solver solver -> six_decimals p -> optimum p v -> objective_function p = Some o ->
  solve_with_cplex solver p = Some s -> evaluate s o == v.
Proof.
  intros CS SD OP E H. rewrite evaluate_value, (solve_value solver p o s E H). apply written_optimum in OP; [|exact SD]. destruct (CS _ _ OP) as [o' [E' [_ [V _]]]]. cbn [written objective_function] in E'. rewrite E in E'. injection E' as <-. exact V.
Qed.

(** ** Prefixes *)

Fixpoint strip (s w : string) : option string :=
  match s, w with
  | EmptyString, _ => Some w
  | String c s', String d w' => if Ascii.eqb c d then strip s' w' else None
  | _, _ => None
  end.

Lemma strip_app s w : strip s (s ++ w)%string = Some w.
Proof. induction s as [|c s IH]; [reflexivity|]. cbn. rewrite Ascii.eqb_refl. exact IH. Qed.

Lemma app_string_assoc a b c : ((a ++ b) ++ c = a ++ (b ++ c))%string.
Proof. induction a as [|x a IH]; [reflexivity|]. cbn. rewrite IH. reflexivity. Qed.

Definition lift (pre : string) (x : string -> Q) (w : string) : Q := match strip (pre ++ "_")%string w with Some v => x v | None => 0 end.
Definition restrict (pre : string) (y : string -> Q) (v : string) : Q := y (pre ++ "_" ++ v)%string.

Lemma restrict_lift pre x v : restrict pre (lift pre x) v = x v.
Proof. unfold restrict, lift. rewrite <- app_string_assoc, strip_app. reflexivity. Qed.

Lemma prefix_value c pre y : value (apply_prefix c pre) y = value c (restrict pre y).
Proof. induction c as [|[k w] c IH]; [reflexivity|]. unfold apply_prefix in *. cbn [map fst snd]. rewrite !value_cons, IH. reflexivity. Qed.

Lemma prefix_result p pre o : objective_function p = Some o -> exists p', apply_variable_prefix p pre = Some p' /\ objective_function p' = Some (apply_prefix o pre) /\ goal p' = goal p /\
  equalities p' = map (fun c => (apply_prefix (fst c) pre, snd c)) (equalities p) /\ inequalities p' = map (fun c => (apply_prefix (fst c) pre, snd c)) (inequalities p).
Proof. intros E. unfold apply_variable_prefix. rewrite E. eexists. split; [reflexivity|]. cbn. auto. Qed.

Lemma prefix_feasible p p' pre y : apply_variable_prefix p pre = Some p' -> (forall v, 0 <= y v) -> (feasible p' y <-> feasible p (restrict pre y)).
Proof.
  intros H N. unfold apply_variable_prefix in H. destruct (objective_function p) as [o|]; [|discriminate]. injection H as <-. unfold feasible. cbn [equalities inequalities]. split; intros [_ [FE FI]].
  - split; [intros v; apply N|]. split; intros c b I; rewrite <- prefix_value; [apply FE|apply FI]; apply in_map_iff; exists (c, b); auto.
  - split; [exact N|]. split; intros c b I; apply in_map_iff in I; destruct I as [[c' b'] [E I]]; cbn [fst snd] in E; injection E as <- <-; rewrite prefix_value; [apply FE|apply FI]; exact I.
Qed.

Lemma feasible_ext p x y : (forall v, x v == y v) -> feasible p x -> feasible p y.
Proof.
  intros E [N [FE FI]]. split; [intros v; rewrite <- E; apply N|]. split; intros c b I; rewrite <- (value_ext c x y) by (intros; apply E); [apply FE|apply FI]; exact I.
Qed.

Lemma lift_nonneg pre x : (forall v, 0 <= x v) -> forall w, 0 <= lift pre x w.
Proof. intros N w. unfold lift. destruct (strip _ w); [apply N|lra]. Qed.

Lemma prefix_optimum p p' pre v : apply_variable_prefix p pre = Some p' -> (optimum p v <-> optimum p' v).
Proof.
  intros H. assert (OB : exists o, objective_function p = Some o). { unfold apply_variable_prefix in H. destruct (objective_function p) as [o|]; [exists o; reflexivity|discriminate]. }
  destruct OB as [o OB]. destruct (prefix_result p pre o OB) as [p'' [H' [OB' [GG _]]]]. rewrite H in H'. injection H' as <-. split; intros [G [o' [x [E [F [V M]]]]]].
  - rewrite OB in E. injection E as <-. split; [congruence|]. exists (apply_prefix o pre), (lift pre x). split; [exact OB'|].
    assert (FL : feasible p' (lift pre x)). { apply (prefix_feasible p p' pre _ H); [apply lift_nonneg; apply F|]. apply (feasible_ext p x); [intros w; rewrite restrict_lift; reflexivity|exact F]. }
    split; [exact FL|]. split.
    + rewrite prefix_value, <- V. apply value_ext. intros. rewrite restrict_lift. reflexivity.
    + intros y FY. rewrite prefix_value. apply M. apply (prefix_feasible p p' pre y H); [apply FY|exact FY].
  - rewrite OB' in E. injection E as <-. split; [congruence|]. exists o, (restrict pre x). split; [exact OB|]. split; [apply (prefix_feasible p p' pre x H); [apply F|exact F]|]. split; [rewrite <- prefix_value; exact V|].
    intros y FY. specialize (M (lift pre y)). rewrite prefix_value in M. rewrite (value_ext o (restrict pre (lift pre y)) y) in M by (intros; rewrite restrict_lift; reflexivity). apply M.
    apply (prefix_feasible p p' pre _ H); [apply lift_nonneg; apply FY|]. apply (feasible_ext p y); [intros w; rewrite restrict_lift; reflexivity|exact FY].
Qed.

Lemma prefix_distinct a b v w : no_underscore a -> no_underscore b -> (a ++ "_" ++ v = b ++ "_" ++ w)%string -> a = b.
Proof.
  revert b. induction a as [|c a IH]; intros [|d b] NA NB E; cbn in *.
  - reflexivity.
  - injection E as E _. destruct NB as [NB _]. congruence.
  - injection E as E _. destruct NA as [NA _]. congruence.
  - injection E as -> E. f_equal. apply (IH b); [apply NA|apply NB|exact E].
Qed.

(** ** Merging *)

Definition objective_of (p : linear_program) : vector := match objective_function p with Some o => o | None => [] end.
Definition program_vars (p : linear_program) : list string :=
  map snd (objective_of p) ++ flat_map (fun c => map snd (fst c)) (equalities p ++ inequalities p).

Lemma merge_result p q : goal q = goal p -> objective_function q <> None -> merge p q = Some (LP (equalities p ++ equalities q) (inequalities p ++ inequalities q) (Some (objective_of p ++ objective_of q)) (local_objective p) (goal p)).
Proof. intros G O. unfold merge, objective_of. rewrite G, String.eqb_refl. cbn [negb]. destruct (objective_function q); [reflexivity|congruence]. Qed.

Lemma merge_inv p q r : merge p q = Some r -> goal q = goal p /\ objective_function q <> None.
Proof. unfold merge. destruct (String.eqb_spec (goal q) (goal p)); cbn [negb]; [|discriminate]. destruct (objective_function q); [|discriminate]. intros _. split; [assumption|discriminate]. Qed.

Lemma merge_feasible p q r x : merge p q = Some r -> (feasible r x <-> feasible p x /\ feasible q x).
Proof.
  intros H. destruct (merge_inv p q r H) as [G O]. rewrite (merge_result p q G O) in H. injection H as <-. unfold feasible. cbn [equalities inequalities]. split.
  - intros [N [FE FI]]. split; (split; [exact N|]); split; intros c b I; [apply FE|apply FI|apply FE|apply FI]; apply in_or_app; auto.
  - intros [[N [FE FI]] [_ [FE' FI']]]. split; [exact N|]. split; intros c b I; apply in_app_or in I; destruct I as [I|I]; auto.
Qed.

Lemma feasible_local p x y : (forall w, In w (program_vars p) -> x w == y w) -> (forall v, 0 <= y v) -> feasible p x -> feasible p y.
Proof.
  intros E NY [N [FE FI]]. split; [exact NY|]. split; intros c b I.
  - rewrite <- (FE c b I). apply value_ext. intros k w J. symmetry. apply E. unfold program_vars. apply in_or_app. right. apply in_flat_map. exists (c, b). split; [apply in_or_app; left; exact I|]. apply in_map_iff. exists (k, w). auto.
  - rewrite <- (value_ext c x y); [apply (FI c b I)|]. intros k w J. apply E. unfold program_vars. apply in_or_app. right. apply in_flat_map. exists (c, b). split; [apply in_or_app; right; exact I|]. apply in_map_iff. exists (k, w). auto.
Qed.

Lemma objective_local p x y : (forall w, In w (program_vars p) -> x w == y w) -> value (objective_of p) x == value (objective_of p) y.
Proof. intros E. apply value_ext. intros k w J. apply E. unfold program_vars. apply in_or_app. left. apply in_map_iff. exists (k, w). auto. Qed.

Definition disjoint (p q : linear_program) : Prop := forall w, In w (program_vars p) -> In w (program_vars q) -> False.

(** [v] is the optimum of the program, an absent objective being 0 *)
Definition maximal (p : linear_program) (x : string -> Q) (v : Q) : Prop := feasible p x /\ value (objective_of p) x == v /\ forall y, feasible p y -> value (objective_of p) y <= v.

Definition mixed (p : linear_program) (x y : string -> Q) (w : string) : Q := if is_killed (program_vars p) w then x w else y w.

Lemma mixed_feasible p q x y : disjoint p q -> feasible p x -> feasible q y -> feasible p (mixed p x y) /\ feasible q (mixed p x y) /\
  value (objective_of p) (mixed p x y) == value (objective_of p) x /\ value (objective_of q) (mixed p x y) == value (objective_of q) y.
Proof.
  intros D FP FQ. assert (N : forall v, 0 <= mixed p x y v) by (intros v; unfold mixed; destruct (is_killed _ v); [apply FP|apply FQ]).
  assert (EP : forall w, In w (program_vars p) -> x w == mixed p x y w) by (intros w I; unfold mixed; apply is_killed_iff in I; rewrite I; reflexivity).
  assert (EQ : forall w, In w (program_vars q) -> y w == mixed p x y w).
  { intros w I. unfold mixed. destruct (is_killed (program_vars p) w) eqn:E; [|reflexivity]. exfalso. apply is_killed_iff in E. exact (D w E I). }
  split; [exact (feasible_local p x _ EP N FP)|]. split; [exact (feasible_local q y _ EQ N FQ)|]. split; symmetry; apply objective_local; assumption.
Qed.

Lemma merge_maximal p q r x y v w : merge p q = Some r -> disjoint p q -> maximal p x v -> maximal q y w -> maximal r (mixed p x y) (v + w) /\
  forall z, feasible r z -> value (objective_of r) z == v + w -> value (objective_of p) z == v /\ value (objective_of q) z == w.
Proof.
  intros H D [FP [VP MP]] [FQ [VQ MQ]]. destruct (merge_inv p q r H) as [G O]. assert (OR : objective_of r = objective_of p ++ objective_of q) by (rewrite (merge_result p q G O) in H; injection H as <-; reflexivity).
  destruct (mixed_feasible p q x y D FP FQ) as [A [B [C E]]]. split.
  - split; [apply (merge_feasible p q r _ H); auto|]. rewrite OR. split; [rewrite value_app, C, E, VP, VQ; reflexivity|].
    intros z FZ. apply (merge_feasible p q r _ H) in FZ. destruct FZ as [F1 F2]. rewrite value_app. specialize (MP z F1). specialize (MQ z F2). lra.
  - intros z FZ. apply (merge_feasible p q r _ H) in FZ. destruct FZ as [F1 F2]. rewrite OR, value_app. intros S. specialize (MP z F1). specialize (MQ z F2). split; lra.
Qed.

Lemma merge_vars p q r w : merge p q = Some r -> In w (program_vars r) -> In w (program_vars p) \/ In w (program_vars q).
Proof.
  intros H. destruct (merge_inv p q r H) as [G O]. rewrite (merge_result p q G O) in H. injection H as <-. unfold program_vars, objective_of at 1. cbn [objective_function equalities inequalities].
  rewrite !in_app_iff, map_app, !in_app_iff, !flat_map_app, !in_app_iff. tauto.
Qed.

Lemma prefix_vars p p' pre w : apply_variable_prefix p pre = Some p' -> In w (program_vars p') -> exists v, w = (pre ++ "_" ++ v)%string.
Proof.
  intros H. unfold apply_variable_prefix in H. destruct (objective_function p) as [o|]; [|discriminate]. injection H as <-. unfold program_vars, objective_of. cbn [objective_function equalities inequalities].
  rewrite in_app_iff, flat_map_app, in_app_iff, !in_flat_map. assert (X : forall c, In w (map snd (apply_prefix c pre)) -> exists v, w = (pre ++ "_" ++ v)%string).
  { intros c I. unfold apply_prefix in I. rewrite map_map in I. apply in_map_iff in I. destruct I as [t [<- _]]. exists (snd t). reflexivity. }
  intros [I|[[c [I J]]|[c [I J]]]]; [apply (X o I)| |]; apply in_map_iff in I; destruct I as [c' [<- _]]; exact (X _ J).
Qed.

Lemma optimum_maximal p v : optimum p v <-> goal p = "Maximize"%string /\ objective_function p <> None /\ exists x, maximal p x v.
Proof.
  unfold optimum, maximal, solves, objective_of. split.
  - intros [G [o [x [E H]]]]. split; [exact G|]. rewrite E. split; [discriminate|]. exists x. exact H.
  - intros [G [O [x H]]]. split; [exact G|]. destruct (objective_function p) as [o|]; [|congruence]. exists o, x. auto.
Qed.

Lemma combine_maximal : forall l acc x0 v0, goal acc = "Maximize"%string -> maximal acc x0 v0 -> NoDup (map fst l) -> (forall pre q, In (pre, q) l -> no_underscore pre) ->
  (forall pre q w, In (pre, q) l -> In w (program_vars acc) -> exists pre' u, w = (pre' ++ "_" ++ u)%string /\ no_underscore pre' /\ pre' <> pre) ->
  forall vs, Forall2 (fun q v => optimum (snd q) v) l vs ->
  exists r x, combine_programs acc l = Some r /\ goal r = "Maximize"%string /\ maximal r x (v0 + qtotal vs) /\
    forall z, feasible r z -> value (objective_of r) z == v0 + qtotal vs -> feasible acc z /\ value (objective_of acc) z == v0 /\
      Forall2 (fun q v => solves (snd q) (objective_of (snd q)) (restrict (fst q) z) v) l vs.
Proof.
  induction l as [|[pre q] l IH]; intros acc x0 v0 GA MA ND NU DV vs F2; inversion F2 as [|? v ? vs' OQ F2']; subst.
  - exists acc, x0. cbn [combine_programs qtotal fold_right]. split; [reflexivity|]. split; [exact GA|]. split.
    + destruct MA as [A [B C]]. split; [exact A|]. split; [rewrite B; lra|]. intros y FY. specialize (C y FY). lra.
    + intros z FZ VZ. split; [exact FZ|]. split; [rewrite VZ; lra|constructor].
  - cbn [snd] in OQ. pose proof OQ as [GQ [o [xq [OB SQ]]]]. destruct (prefix_result q pre o OB) as [q' [HP [OB' [GQ' _]]]].
    assert (OQ' : optimum q' v) by (apply (prefix_optimum q q' pre v HP); exact OQ). apply optimum_maximal in OQ'. destruct OQ' as [_ [NN [y MY]]].
    pose proof (merge_result acc q' (eq_trans GQ' (eq_trans GQ (eq_sym GA))) NN) as HM. set (a := LP _ _ _ _ _) in HM.
    assert (DJ : disjoint acc q').
    { intros w I1 I2. destruct (DV pre q w (or_introl eq_refl) I1) as [pre' [u [E [NU' NE]]]]. destruct (prefix_vars q q' pre w HP I2) as [u' E']. apply NE. apply (prefix_distinct pre' pre u u'); [exact NU'|apply (NU pre q); left; reflexivity|congruence]. }
    destruct (merge_maximal acc q' a x0 y v0 v HM DJ MA MY) as [MX PARTS]. cbn [map fst] in ND. inversion ND as [|? ? NI ND']; subst.
    destruct (IH a (mixed acc x0 y) (v0 + v) GA MX ND') with (vs := vs') as [r [x [HR [GR [MR PR]]]]]; [| |exact F2'|].
    + intros pre' q1 I. apply (NU pre' q1). right. exact I.
    + intros pre' q1 w I1 I2. destruct (merge_vars acc q' a w HM I2) as [I|I].
      * apply (DV pre' q1 w); [right; exact I1|exact I].
      * destruct (prefix_vars q q' pre w HP I) as [u E]. exists pre, u. split; [exact E|]. split; [apply (NU pre q); left; reflexivity|]. intros ->. apply NI. apply in_map_iff. exists (pre', q1). auto.
    + exists r, x. cbn [combine_programs]. rewrite HP, HM. split; [exact HR|]. split; [exact GR|].
      assert (SUM : v0 + v + qtotal vs' == v0 + qtotal (v :: vs')) by (change (qtotal (v :: vs')) with (v + qtotal vs'); ring). split.
      * destruct MR as [A [B C]]. split; [exact A|]. split; [rewrite B; exact SUM|]. intros w FW. specialize (C w FW). lra.
      * intros z FZ VZ. rewrite <- SUM in VZ. destruct (PR z FZ VZ) as [FA [VA REST]]. destruct (PARTS z FA VA) as [P1 P2]. apply (merge_feasible acc q' a z HM) in FA. destruct FA as [FA1 FA2].
        split; [exact FA1|]. split; [exact P1|]. constructor; [|exact REST]. cbn [fst snd]. unfold objective_of in P2 |- *. rewrite OB. rewrite OB' in P2. rewrite prefix_value in P2.
        split; [apply (prefix_feasible q q' pre z HP); [apply FA2|exact FA2]|]. split; [exact P2|]. destruct SQ as [_ [_ M]]. exact M.
Qed.
