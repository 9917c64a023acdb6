(** Lemmas about the affinity feasibility test. *)
From Coq Require Import NArith ZArith QArith Qround List Bool Lia Arith Permutation Lqa.
From Verif Require Import Base SpecUni SpecQPA ModelNative ModelLP SpecLP ModelAPAFeas SpecAPAFeas ProofLP ProofMatch ProofColor ProofQPA.
Import ListNotations.
Open Scope Z_scope.

(** ** Sets of processors *)
Lemma set_insert_in c a x : In x (set_insert c a) <-> x = c \/ In x a.
Proof.
  unfold set_insert. destruct (existsb (Nat.eqb c) a) eqn:E; [|rewrite in_app_iff; cbn; intuition].
  apply existsb_exists in E. destruct E as [y [Hy E]]. apply Nat.eqb_eq in E. subst y. split; [auto|]. intros [->|H]; auto.
Qed.

Lemma insert_all_in af : forall all x, In x (fold_left (fun a c => set_insert c a) af all) <-> In x af \/ In x all.
Proof.
  induction af as [|c r IH]; intros all x; cbn; [tauto|]. rewrite IH, set_insert_in. split; [intros [H|[H|H]]; auto|intros [[H|H]|H]; auto].
Qed.

Lemma all_cpus_gen afs : forall all x, In x (fold_left (fun all af => fold_left (fun a c => set_insert c a) af all) afs all) <-> In x all \/ exists af, In af afs /\ In x af.
Proof.
  induction afs as [|af r IH]; intros all x; cbn; [split; [auto|intros [H|[af [[] _]]]; exact H]|]. rewrite IH, insert_all_in. split.
  - intros [[H|H]|[a [H1 H2]]]; eauto.
  - intros [H|[a [[<-|H1] H2]]]; eauto.
Qed.

Lemma all_cpus_in afs x : In x (get_all_cpus afs) <-> exists af, In af afs /\ In x af.
Proof. unfold get_all_cpus. rewrite all_cpus_gen. split; [intros [[]|H]; exact H|auto]. Qed.

(** ** Meaning of the program *)
Lemma service_eqs afs : forall i lp e b, In (e, b) (lp_eqs (add_task_service_constraints i afs lp)) <->
  In (e, b) (lp_eqs lp) \/ exists k af, nth_error afs k = Some af /\ af <> [] /\ e = task_service (i + k) af /\ b = 1%Q.
Proof.
  induction afs as [|af r IH]; intros i lp e b; cbn [add_task_service_constraints].
  - split; [auto|]. intros [H|[k [af [H _]]]]; [exact H|destruct k; discriminate].
  - rewrite IH. assert (E : In (e, b) (lp_eqs (add_equality (task_service i af) 1 lp)) <-> In (e, b) (lp_eqs lp) \/ (af <> [] /\ e = task_service i af /\ b = 1%Q)).
    { unfold add_equality. destruct af as [|c af]; cbn [task_service flat_map add_var app has_terms].
      - split; [auto|]. intros [H|[H _]]; [exact H|congruence].
      - cbn [lp_eqs]. rewrite in_app_iff. cbn [In]. split.
        + intros [H|[H|[]]]; [auto|]. right. injection H as <- <-. split; [discriminate|auto].
        + intros [H|[_ [-> ->]]]; auto. }
    rewrite E. split.
    + intros [[H|[H1 [H2 H3]]]|[k [a [H1 [H2 [H3 H4]]]]]]; [auto| |].
      * right. exists O, af. rewrite Nat.add_0_r. auto.
      * right. exists (S k), a. rewrite Nat.add_succ_r. auto.
    + intros [H|[[|k] [a [H1 [H2 [H3 H4]]]]]]; [auto| |].
      * left. right. cbn in H1. injection H1 as <-. rewrite Nat.add_0_r in H3. auto.
      * right. exists k, a. rewrite Nat.add_succ_r in H3. auto.
Qed.

Lemma service_other afs : forall i lp, lp_ineqs (add_task_service_constraints i afs lp) = lp_ineqs lp /\ lp_bins (add_task_service_constraints i afs lp) = lp_bins lp.
Proof.
  induction afs as [|af r IH]; intros i lp; cbn [add_task_service_constraints]; [auto|]. destruct (IH (S i) (add_equality (task_service i af) 1 lp)) as [-> ->].
  unfold add_equality. destruct (has_terms _); auto.
Qed.

Lemma capacity_gen ts cpus : forall lp,
  (forall e b, In (e, b) (lp_ineqs (add_cpu_capacity_constraints ts cpus lp)) <-> In (e, b) (lp_ineqs lp) \/ exists c, In c cpus /\ ts <> [] /\ e = cpu_capacity O ts c /\ b = 1%Q) /\
  lp_eqs (add_cpu_capacity_constraints ts cpus lp) = lp_eqs lp /\ lp_bins (add_cpu_capacity_constraints ts cpus lp) = lp_bins lp.
Proof.
  unfold add_cpu_capacity_constraints. induction cpus as [|c r IH]; intros lp; cbn [fold_left].
  - split; [|auto]. intros e b. split; [auto|]. intros [H|[c [[] _]]]; exact H.
  - destruct (IH (add_inequality (cpu_capacity O ts c) 1 lp)) as [I1 [I2 I3]]. rewrite I2, I3.
    assert (E : (forall e b, In (e, b) (lp_ineqs (add_inequality (cpu_capacity O ts c) 1 lp)) <-> In (e, b) (lp_ineqs lp) \/ (ts <> [] /\ e = cpu_capacity O ts c /\ b = 1%Q)) /\
       lp_eqs (add_inequality (cpu_capacity O ts c) 1 lp) = lp_eqs lp /\ lp_bins (add_inequality (cpu_capacity O ts c) 1 lp) = lp_bins lp).
    { unfold add_inequality. destruct ts as [|t ts]; cbn [cpu_capacity has_terms].
      - split; [|auto]. intros e b. split; [auto|]. intros [H|[H _]]; [exact H|congruence].
      - cbn [lp_ineqs lp_eqs lp_bins]. split; [|auto]. intros e b. rewrite in_app_iff. cbn [In]. split.
        + intros [H|[H|[]]]; [auto|]. right. injection H as <- <-. split; [discriminate|auto].
        + intros [H|[_ [-> ->]]]; auto. }
    destruct E as [E1 [-> ->]]. split; [|auto]. intros e b. rewrite I1, E1. split.
    + intros [[H|[H1 [H2 H3]]]|[d [H1 H2]]]; [auto| |]; right; [exists c|exists d]; cbn; auto.
    + intros [H|[d [[<-|H1] H2]]]; [auto|left; right; exact H2|right; exists d; auto].
Qed.

Lemma apa_lp_meaning ts afs x : feasible (apa_lp ts afs) x <->
  (forall v, (0 <= x v <= 1)%Q) /\
  (forall i af, nth_error afs i = Some af -> af <> [] -> (evaluate x (task_service i af) == 1)%Q) /\
  (forall c, In c (get_all_cpus afs) -> ts <> [] -> (evaluate x (cpu_capacity O ts c) <= 1)%Q).
Proof.
  unfold apa_lp. destruct (capacity_gen ts (get_all_cpus afs) (add_task_service_constraints O afs lp_empty)) as [C1 [C2 C3]].
  destruct (service_other afs O lp_empty) as [S1 S2]. pose proof (service_eqs afs O lp_empty) as S3. split.
  - intros [F1 F2 F3 F4]. split; [exact F1|]. split.
    + intros i af H1 H2. apply F3. rewrite C2, S3. right. exists i, af. auto.
    + intros c H1 H2. apply F4. apply C1. right. exists c. auto.
  - intros [F1 [F2 F3]]. constructor.
    + exact F1.
    + intros v H. rewrite C3, S2 in H. destruct H.
    + intros e b H. rewrite C2, S3 in H. destruct H as [[]|[k [af [H1 [H2 [-> ->]]]]]]. apply F2; assumption.
    + intros e b H. apply C1 in H. rewrite S1 in H. destruct H as [[]|[c [H1 [H2 [-> ->]]]]]. apply F3; assumption.
Qed.

Lemma eval_service x i af : (evaluate x (task_service i af) == rsum (fun c => x (i, c)) af)%Q.
Proof.
  unfold task_service, add_var. induction af as [|c r IH]; [reflexivity|]. cbn [flat_map app]. unfold evaluate, rsum in *. cbn [fold_right fst snd]. rewrite IH. ring.
Qed.

(** ** Columns *)
Definition fv_ok (v : fvar) : Prop := (N.of_nat (fst v) < 2 ^ 32 /\ N.of_nat (snd v) < 2 ^ 32)%N.

Lemma key_inj v w : fv_ok v -> fv_ok w -> fraction_key v = fraction_key w -> v = w.
Proof.
  destruct v as [a b], w as [c d]. unfold fraction_key, fv_ok. cbn [fst snd]. intros [H1 H2] [H3 H4] E.
  remember (2 ^ 32)%N as M eqn:EM. clear EM. assert (a = c) by nia. subst c. f_equal. lia.
Qed.

Lemma mapper_all vs : forall m v, (In v vs \/ exists i, position (fraction_key v) m = Some i) ->
  exists i, position (fraction_key v) (fold_left (fun m v => snd (var_for_key (fraction_key v) m)) vs m) = Some i.
Proof.
  induction vs as [|w r IH]; intros m v H; cbn [fold_left]; [destruct H as [[]|H]; exact H|]. apply IH.
  assert (K : forall k, (exists i, position k m = Some i) \/ k = fraction_key w -> exists i, position k (snd (var_for_key (fraction_key w) m)) = Some i).
  { intros k. unfold var_for_key. destruct (position (fraction_key w) m) as [j|] eqn:P; cbn [snd].
    - intros [X| ->]; eauto.
    - intros [[j X]| ->]; [exists j; apply position_app; exact X|eexists; apply position_new; exact P]. }
  destruct H as [[->|H]|H]; [right; apply K; auto|auto|right; apply K; auto].
Qed.

Definition unmap (m : varmapper) (vs : list fvar) (n : nat) : fvar :=
  match find (fun v => Nat.eqb (fraction m v) n) vs with Some v => v | None => (O, O) end.

Lemma unmap_correct vs v : (forall w, In w vs -> fv_ok w) -> In v vs -> unmap (fvar_mapper vs) vs (fraction (fvar_mapper vs) v) = v.
Proof.
  intros H Hv. unfold unmap. destruct (find _ vs) as [w|] eqn:F.
  - apply find_some in F. destruct F as [F1 F2]. apply Nat.eqb_eq in F2. unfold fraction in F2.
    destruct (mapper_all vs [] w (or_introl F1)) as [i Hi]. destruct (mapper_all vs [] v (or_introl Hv)) as [j Hj].
    unfold fvar_mapper in F2. rewrite Hi, Hj in F2. subst j. apply position_some in Hi, Hj. rewrite Hi in Hj. injection Hj as Hj. apply key_inj; auto.
  - exfalso. apply (find_none _ _ F) in Hv. rewrite Nat.eqb_refl in Hv. discriminate.
Qed.

Lemma columns_feasible ts afs x : feasible (apa_columns ts afs) x -> feasible (apa_lp ts afs) (fun v => x (fraction (fvar_mapper (lp_vars (apa_lp ts afs))) v)).
Proof. apply feasible_rename. Qed.

Lemma columns_complete ts afs y : (forall v, In v (lp_vars (apa_lp ts afs)) -> fv_ok v) -> feasible (apa_lp ts afs) y -> exists x, feasible (apa_columns ts afs) x.
Proof.
  intros H F. eexists. unfold apa_columns. eapply feasible_unrename; [|exact F]. intros v Hv. apply unmap_correct; [exact H|exact Hv].
Qed.

(** the variables of the program *)
Lemma capacity_vars ts c : forall i v, In v (map snd (cpu_capacity i ts c)) -> (i <= fst v < i + length ts)%nat /\ snd v = c.
Proof.
  induction ts as [|t r IH]; intros i v H; [destruct H|]. cbn [cpu_capacity map snd] in H. destruct H as [<-|H]; cbn [length]; [cbn; lia|].
  apply IH in H. lia.
Qed.

Lemma lp_obj_empty ts afs : lp_obj (apa_lp ts afs) = [].
Proof.
  unfold apa_lp, add_cpu_capacity_constraints. assert (A : forall cpus lp, lp_obj (fold_left (fun lp cpu => add_inequality (cpu_capacity O ts cpu) 1 lp) cpus lp) = lp_obj lp).
  { induction cpus as [|c r IH]; intros lp; cbn [fold_left]; [reflexivity|]. rewrite IH. unfold add_inequality. destruct (has_terms _); reflexivity. }
  rewrite A. assert (B : forall l i lp, lp_obj (add_task_service_constraints i l lp) = lp_obj lp).
  { induction l as [|af r IH]; intros i lp; cbn [add_task_service_constraints]; [reflexivity|]. rewrite IH. unfold add_equality. destruct (has_terms _); reflexivity. }
  rewrite B. reflexivity.
Qed.

Lemma apa_vars ts afs v : length ts = length afs -> In v (lp_vars (apa_lp ts afs)) -> (fst v < length ts)%nat /\ In (snd v) (get_all_cpus afs).
Proof.
  intros HL H. unfold lp_vars in H. rewrite !in_app_iff in H.
  destruct (capacity_gen ts (get_all_cpus afs) (add_task_service_constraints O afs lp_empty)) as [C1 [C2 C3]]. fold (apa_lp ts afs) in C1, C2, C3.
  destruct (service_other afs O lp_empty) as [S1 S2]. pose proof (service_eqs afs O lp_empty) as S3.
  rewrite lp_obj_empty, C3, S2 in H.
  assert (G : forall (l : list (linexp fvar * Q)), In v (map snd (concat (map fst l))) -> exists e b, In (e, b) l /\ In v (map snd e)).
  { intros l X. apply in_map_iff in X. destruct X as [t [<- X]]. apply in_concat in X. destruct X as [e [X1 X2]]. apply in_map_iff in X1. destruct X1 as [[e' b] [<- X1]]. exists e', b. split; [exact X1|]. apply in_map. exact X2. }
  assert (K : (exists e b, (In (e, b) (lp_eqs (apa_lp ts afs)) \/ In (e, b) (lp_ineqs (apa_lp ts afs))) /\ In v (map snd e)) -> (fst v < length ts)%nat /\ In (snd v) (get_all_cpus afs)).
  { intros [e [b [[X|X] Y]]].
    - rewrite C2, S3 in X. destruct X as [[]|[k [af [X1 [X2 [-> _]]]]]]. unfold task_service in Y. apply in_map_iff in Y. destruct Y as [t [<- Y]]. apply in_flat_map in Y. destruct Y as [c [Y1 Y2]]. cbn in Y2. destruct Y2 as [<-|[]]. cbn.
      split; [rewrite HL; eapply nth_error_Some_lt; exact X1|]. apply all_cpus_in. exists af. split; [eapply nth_error_In; exact X1|exact Y1].
    - apply C1 in X. rewrite S1 in X. destruct X as [[]|[c [X1 [X2 [-> _]]]]]. apply capacity_vars in Y. destruct Y as [Y1 Y2]. subst c. split; [lia|exact X1]. }
  destruct H as [H|[H|[H|H]]]; cbn in H; try contradiction; apply K; apply G in H || idtac; destruct H as [e [b [X Y]]]; exists e, b; auto.
Qed.
