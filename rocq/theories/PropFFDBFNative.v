(** Property theorems C57: the C++ version of the FF-DBF test for global EDF. *)
From Coq Require Import ZArith QArith List Bool Lia Lqa.
From Verif Require Import Base ModelTasks SpecTasks ProofTasks SpecUni SpecQPA SpecGlobal ProofUni ProofEDF ProofGlobal ModelNative ModelGEDF ModelGEDFNative
  ProofGEDF ProofGEDFNative ProofBAK ModelFFDBF ProofFFDBFTop ModelLA ProofLA ProofNB ModelFFDBFNative ProofFFDBFNative PropGEDF PropGEDFAccept PropLA.
Import ListNotations.
Open Scope Z_scope.

(** The verdict is that of the Python version, for every epsilon and granularity. *)
Theorem C57_agree : forall fuel sf qf fuel' pf ed g m ts b b', ts <> [] -> native_pre m ts ->
  n_ffdbf fuel sf qf ed g m (get_native_taskset ts) true = Some b -> ffdbf_test fuel' pf (1 # ed) g m ts = Some b' -> b = b'.
Proof.
  intros fuel sf qf fuel' pf ed g m ts b b' Hne [P1 [P2 P3]] H H'.
  assert (Hw : Forall wf_task ts) by (eapply Forall_impl; [|exact P1]; unfold pre_task, wf_task; intros; lia).
  rewrite native_map in H by assumption. pose proof (nb_ok_pre ts P1 P2) as Hok.
  assert (Pre : preconditions m (map nt ts) = true) by (apply pre_iff; auto).
  rewrite <- (back_nt ts) in H'. apply (n_ffdbf_agree fuel sf qf fuel' pf ed g m (map nt ts)); [destruct ts; [contradiction|discriminate]|assumption| |assumption].
  unfold n_ffdbf in *. rewrite Pre in H. exact H.
Qed.
Print Assumptions C57_agree.

Lemma nf_sound : forall fuel sf qf ed g (m : nat) ts, Forall nb_ok ts -> n_ffdbf fuel sf qf ed g (Z.of_nat m) ts false = Some true -> gedf_schedulable (map en ts) m.
Proof.
  intros fuel sf qf ed g m ts Hok H. destruct ts as [|t ts]; [intros s sc _ _ _ j e He; cbn in He; destruct (fst j); discriminate|]. set (T := t :: ts) in *.
  assert (Hok' := Hok). rewrite Forall_forall in Hok'.
  assert (Hw : Forall wf_task (map back T)) by (rewrite Forall_map; apply Forall_forall; intros u Hu; destruct (Hok' u Hu) as [? [? ?]]; unfold wf_task; cbn; lia).
  assert (Hc : Forall constrained (map back T)) by (rewrite Forall_map; apply Forall_forall; intros u Hu; destruct (Hok' u Hu) as [? [? ?]]; unfold constrained; cbn; lia).
  assert (Hp : map back T = [] \/ exists u, In u (map back T) /\ 0 < t_cost u) by (right; exists (back t); split; [left; reflexivity|destruct (Hok' t (or_introl eq_refl)) as [? _]; cbn; lia]).
  destruct (ffdbf_terminates (1 # ed) g (Z.of_nat m) (map back T) ltac:(reflexivity) Hw Hc Hp) as [N HN]. specialize (HN N N (le_n N) (le_n N)).
  destruct (ffdbf_test N N (1 # ed) g (Z.of_nat m) (map back T)) as [b|] eqn:E; [|congruence].
  assert (true = b) by (eapply n_ffdbf_agree; [|exact Hok|exact H|exact E]; discriminate). subst b.
  pose proof (ffdbf_sound N N (1 # ed) g m (map back T) ltac:(reflexivity) Hw Hc E) as S. rewrite map_map in S. exact S.
Qed.

Lemma nb_ok_check : forall m ts, Forall (fun t => 0 <= n_susp t) ts -> preconditions m ts = true -> Forall nb_ok ts.
Proof.
  intros m ts Hsu P. unfold preconditions in P. rewrite !andb_true_iff in P. destruct P as [[[P1 _] P3] P4].
  apply feasible_n in P1. unfold has_only_constrained in P3. unfold has_no_suspending in P4. rewrite forallb_forall in P3, P4. apply Forall_forall. intros t Ht.
  rewrite Forall_forall in P1, Hsu. specialize (P1 t Ht). specialize (P3 t Ht). specialize (P4 t Ht). specialize (Hsu t Ht). unfold n_constrained in P3. unfold nb_ok.
  apply Z.leb_le in P3. unfold n_suspending in P4. apply negb_true_iff, Z.ltb_ge in P4. lia.
Qed.

(** An accepted task set meets all deadlines in every global EDF schedule. *)
Theorem C57_safe : forall fuel sf qf ed g (m : nat) ts, Forall (fun t => 0 <= n_susp t) ts ->
  n_ffdbf fuel sf qf ed g (Z.of_nat m) ts true = Some true -> gedf_schedulable (map en ts) m.
Proof.
  intros fuel sf qf ed g m ts Hsu H. unfold n_ffdbf in H. cbn [andb] in H. destruct (Z.of_nat m <? 2) eqn:Em; [discriminate|].
  destruct (preconditions (Z.of_nat m) ts) eqn:P; [|discriminate]. cbn [negb] in H.
  apply (nf_sound fuel sf qf ed g); [eapply nb_ok_check; eassumption|]. unfold n_ffdbf. cbn [andb]. rewrite Em. exact H.
Qed.
Print Assumptions C57_safe.

(** The test ends: with enough fuel the model gives a verdict on every non-empty set
    (with the check; without it on every set that would pass it). *)
Theorem C57_terminates : forall ed g m ts check, ts <> [] -> Forall (fun t => 0 <= n_susp t) ts -> check = true \/ preconditions m ts = true ->
  exists N, forall fuel sf qf, (N <= fuel)%nat -> (N <= sf)%nat -> (N <= qf)%nat -> n_ffdbf fuel sf qf ed g m ts check <> None.
Proof.
  intros ed g m ts check Hne Hsu Hc. destruct (preconditions m ts) eqn:P.
  - destruct (n_ffdbf_terminates ed g m ts Hne (nb_ok_check m ts Hsu P)) as [N HN]. exists N. intros fuel sf qf F1 F2 F3. specialize (HN fuel sf qf F1 F2 F3).
    unfold n_ffdbf in *. rewrite P. cbn [negb]. rewrite andb_false_r. cbn [andb] in HN. exact HN.
  - destruct Hc as [-> |]; [|discriminate]. exists 0%nat. intros fuel sf qf _ _ _. unfold n_ffdbf. rewrite P. destruct (m <? 2); discriminate.
Qed.
Print Assumptions C57_terminates.

(** On the empty set, which passes all checks, the code takes the top of an empty
    queue (undefined behaviour in C++): no verdict, whatever the fuel.  The Python
    version accepts it. *)
Theorem C57_empty_undefined : forall fuel sf qf fuel' pf eps m check, 2 <= m ->
  n_ffdbf fuel sf qf 10 50 m [] check = None /\ preconditions m [] = true /\ ffdbf_test fuel' pf eps 50 m [] = Some true.
Proof.
  intros fuel sf qf fuel' pf eps m check Hm.
  assert (P : preconditions m [] = true).
  { unfold preconditions. cbn. unfold is_not_overutilized. cbn. rewrite ?andb_true_r. apply Qle_bool_iff. change 0%Q with (inject_Z 0). rewrite <- Zle_Qle. lia. }
  split; [|split; [assumption|reflexivity]]. unfold n_ffdbf. destruct (Z.ltb_spec m 2); [lia|]. rewrite P. cbn [negb]. rewrite andb_false_r.
  destruct fuel as [|f]; [reflexivity|]. cbn [nf_loop].
  set (sb := min_q _ 1). assert (S0 : (0 <= sb)%Q).
  { unfold sb. unfold min_q. destruct (Qle_bool _ 1); cbn [negb]; [|lra]. change (ns_util []) with 0%Q. rewrite inject_Z_opp.
    assert (M1 : (0 < inject_Z (m - 1))%Q) by (change 0%Q with (inject_Z 0); rewrite <- Zlt_Qlt; lia).
    assert (M2 : (inject_Z m == inject_Z (m - 1) + 1)%Q) by (change 1%Q with (inject_Z 1); rewrite <- inject_Z_plus; replace (m - 1 + 1) with m by lia; reflexivity).
    setoid_replace ((0 - inject_Z m) / - inject_Z (m - 1))%Q with (1 + 1 / inject_Z (m - 1))%Q by (rewrite M2; field; lra).
    assert (X : (0 <= 1 / inject_Z (m - 1))%Q) by (apply Qle_shift_div_l; lra). lra. }
  assert (E : Qle_bool (ns_max_density []) sb = true) by (apply Qle_bool_iff; exact S0). rewrite E. reflexivity.
Qed.
Print Assumptions C57_empty_undefined.

(** a set that needs several values of sigma, one that is rejected, and the effect
    of the granularity and of the number of processors *)
Example C57_case : native_pre 2 ex_ff /\ n_ffdbf 60 60 60 10 50 2 (get_native_taskset ex_ff) true = Some true /\
  n_ffdbf 60 60 60 10 1 2 (get_native_taskset ex_ff) true = Some false /\
  n_ffdbf 60 200 60 10 50 2 (get_native_taskset [Task 2 3 3; Task 2 3 3; Task 2 4 3]) true = Some false /\
  n_ffdbf 60 60 60 10 50 1 (get_native_taskset ex_ff) true = Some false.
Proof. split; [unfold native_pre, ex_ff; split; [all_lia|split; [all_lia|discriminate]]|]. repeat split; vm_compute; reflexivity. Qed.
