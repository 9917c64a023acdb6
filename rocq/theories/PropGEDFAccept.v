(** Property theorems C19: soundness, termination and order independence
    of Baker's test, of Baruah's test, of FF-DBF and of the combined global EDF test. *)
From Coq Require Import ZArith QArith List Bool Lia Lqa Permutation.
From Verif Require Import Base ModelTasks ProofTasks SpecTasks SpecUni SpecQPA SpecGlobal ProofUni ProofEDF ProofQPA ProofGlobal ProofGlobalGreedy
  ModelGEDF ProofGEDF ProofGEDFRta ProofGFB ModelBAR ProofBAK ProofBARTop ModelFFDBF ProofFFDBFTop ProofGEDFNative ProofGEDFOrder ProofEDFOrder ModelEDF PropGEDF.
Import ListNotations.
Open Scope Z_scope.

(** ** Baker's test *)
Theorem C19_bak_sound : forall (m : nat) ts, (2 <= m)%nat -> Forall wf_task ts -> Forall constrained ts ->
  bak_test (Z.of_nat m) ts = true -> gedf_schedulable (map e_of ts) m.
Proof. exact bak_sound. Qed.
Print Assumptions C19_bak_sound.

(** accepted by BAK, not by GFB *)
Definition ex_bak : taskset := [Task 4 8 6; Task 1 10 5; Task 2 8 4].
Example C19_bak_case : Forall wf_task ex_bak /\ Forall constrained ex_bak /\ bak_test 2 ex_bak = true /\ gfb_test 2 ex_bak = false.
Proof. split; [unfold ex_bak; all_lia|]. split; [unfold ex_bak; all_lia|]. split; vm_compute; reflexivity. Qed.

(** ** Baruah's test *)
Theorem C19_bar_sound : forall fuel (m : nat) ts, (1 <= m)%nat -> feasible_set ts ->
  bar_test fuel (Z.of_nat m) ts = Some true -> gedf_schedulable (map e_of ts) m.
Proof. intros fuel m ts Hm [Hw [Hc Hf]]. apply bar_sound; assumption. Qed.
Print Assumptions C19_bar_sound.

(** accepted by BAR, by neither GFB nor BAK *)
Definition ex_bar : taskset := [Task 1 4 2; Task 4 8 8; Task 3 8 5; Task 3 8 8].
Example C19_bar_case : feasible_set ex_bar /\ bar_test 100 2 ex_bar = Some true /\ gfb_test 2 ex_bar = false /\ bak_test 2 ex_bar = false.
Proof. split; [unfold feasible_set, ex_bar; split; [|split]; all_lia|]. repeat split; vm_compute; reflexivity. Qed.

Theorem C19_bar_terminates : forall m ts, Forall wf_task ts -> exists N, forall fuel, (N <= fuel)%nat -> bar_test fuel m ts <> None.
Proof. exact bar_terminates. Qed.
Print Assumptions C19_bar_terminates.

(** ** FF-DBF *)
Theorem C19_ffdbf_sound : forall fuel pfuel eps g (m : nat) ts, (0 < eps)%Q -> Forall wf_task ts -> Forall constrained ts ->
  ffdbf_test fuel pfuel eps g (Z.of_nat m) ts = Some true -> gedf_schedulable (map e_of ts) m.
Proof. exact ffdbf_sound. Qed.
Print Assumptions C19_ffdbf_sound.

Theorem C19_ffdbf_terminates : forall eps g cpus ts, (0 < eps)%Q -> Forall wf_task ts -> Forall constrained ts ->
  (ts = [] \/ exists t, In t ts /\ 0 < t_cost t) ->
  exists N, forall fuel pfuel, (N <= fuel)%nat -> (N <= pfuel)%nat -> ffdbf_test fuel pfuel eps g cpus ts <> None.
Proof. exact ffdbf_terminates. Qed.
Print Assumptions C19_ffdbf_terminates.

(** Accepted by FF-DBF after two changes of the candidate sigma: from 22/45 to
    7/10 at time 42 and to 18/25 at time 45.  The last candidate does not meet the
    witness condition at 42: the times already passed are not checked again. *)
Definition ex_ff : taskset := [Task 39 240 97; Task 22 240 45; Task 6 240 42; Task 10 240 33; Task 14 240 42; Task 4 240 23].
Example C19_ffdbf_case : Forall wf_task ex_ff /\ Forall constrained ex_ff /\ ffdbf_test 60 60 (1 # 10) 50 2 ex_ff = Some true /\
  witness_condition 2 ex_ff 42 (22 # 45) = false /\ witness_condition 2 ex_ff 45 (7 # 10) = false /\ witness_condition 2 ex_ff 42 (18 # 25) = false.
Proof. split; [unfold ex_ff; all_lia|]. split; [unfold ex_ff; all_lia|]. repeat split; vm_compute; reflexivity. Qed.

(** ** The combined test *)
Lemma accept_sound : forall fuel ffuel bar ffdbf (m : nat) ts step th wr wf, feasible_set ts ->
  (bar (Z.of_nat m) ts = Some true -> gedf_schedulable (map e_of ts) m) ->
  (ffdbf (Z.of_nat m) ts = Some true -> gedf_schedulable (map e_of ts) m) ->
  is_schedulable_py fuel ffuel bar ffdbf (Z.of_nat m) ts step th wr wf = Some true -> gedf_schedulable (map e_of ts) m.
Proof.
  intros fuel ffuel bar ffdbf m ts step th wr wf [Hw [Hc Hf]] Hb Hd H. apply accept_justified in H. destruct H as [_ [_ J]].
  destruct J as [E D|L B|L C G|L C B|fu ff sl L C R|L C B].
  - apply gfb_sound; [lia|assumption|assumption|]. rewrite E. apply m1_gfb. assumption.
  - apply bak_sound; [lia|assumption..].
  - apply gfb_sound; [lia|assumption|assumption|assumption].
  - apply Hb. assumption.
  - destruct (rta_sound fu ff m ts 25 step sl ltac:(lia) Hw C Hf R) as [[Ls I] S].
    intros s sc Hl Hv Hp j e He. assert (Hj : (fst j < length ts)%nat).
    { apply nth_error_Some_lt in He. rewrite map_length in He. assumption. }
    apply responds_le with (a := t_deadline (nth (fst j) ts dt) - nth (fst j) sl 0); [|apply S; assumption].
    specialize (I (fst j) Hj). rewrite (map_nth_error e_of _ _ (nth_error_nth' ts dt Hj)) in He. injection He as <-. cbn. lia.
  - apply Hd. assumption.
Qed.

Theorem C19_accept_sound : forall fuel ffuel bfuel dfuel pfuel (m : nat) ts step th wr wf, feasible_set ts ->
  full_test fuel ffuel bfuel dfuel pfuel (Z.of_nat m) ts step th wr wf = Some true -> gedf_schedulable (map e_of ts) m.
Proof.
  intros fuel ffuel bfuel dfuel pfuel m ts step th wr wf Hfs H. unfold full_test in H.
  destruct (Nat.eq_dec m 0) as [->|Hm].
  - exfalso. apply accept_justified in H. destruct H as [_ [_ J]]. destruct J; cbn in *; lia.
  - apply (accept_sound _ _ _ _ _ _ _ _ _ _ Hfs) in H; [assumption| |].
    + intros B. eapply C19_bar_sound; [lia|eassumption|exact B].
    + intros B. destruct Hfs as [Hw [Hc _]]. eapply C19_ffdbf_sound; [| | |exact B]; [reflexivity|assumption..].
Qed.
Print Assumptions C19_accept_sound.

(** The combined test ends on every feasible set with some positive cost. *)
Theorem C19_accept_terminates : forall m ts step th wr wf, feasible_set ts -> (ts = [] \/ exists t, In t ts /\ 0 < t_cost t) ->
  exists N, forall fuel ffuel bfuel dfuel pfuel, (N <= fuel)%nat -> (N <= ffuel)%nat -> (N <= bfuel)%nat -> (N <= dfuel)%nat -> (N <= pfuel)%nat ->
  full_test fuel ffuel bfuel dfuel pfuel m ts step th wr wf <> None.
Proof.
  intros m ts step th wr wf Hfs Hpos. pose proof Hfs as [Hw [Hc Hf]].
  destruct (Z.le_gt_cases m 1) as [M|M].
  { exists 0%nat. intros. unfold full_test, is_schedulable_py. destruct (_ || _); [discriminate|].
    destruct (_ && _); [discriminate|]. destruct (Z.ltb_spec 1 m); [lia|discriminate]. }
  assert (L25 : 1 <= 25 \/ step <= 1) by lia. destruct (rta_terminates m ts 25 step ltac:(lia) Hfs L25) as [N1 H1].
  destruct (C19_bar_terminates m ts Hw) as [N2 H2].
  destruct (C19_ffdbf_terminates (1 # 10) 50 m ts ltac:(reflexivity) Hw Hc Hpos) as [N3 H3].
  exists (N1 + N2 + N3)%nat. intros fuel ffuel bfuel dfuel pfuel A1 A2 A3 A4 A5. unfold full_test, is_schedulable_py.
  specialize (H1 fuel ffuel ltac:(lia) ltac:(lia)). specialize (H2 bfuel ltac:(lia)). specialize (H3 dfuel pfuel ltac:(lia) ltac:(lia)).
  repeat match goal with
  | |- Some _ <> None => discriminate
  | |- context [if ?x then _ else _] => destruct x
  | |- context [match ?x with _ => _ end] => destruct x eqn:?
  end; try discriminate; try contradiction; try assumption; congruence.
Qed.
Print Assumptions C19_accept_terminates.

(** a set that only BAR accepts: want_baruah decides the verdict *)
Example C19_accept_case : feasible_set ex_bar /\
  full_test 26 60 100 60 60 2 ex_bar 1 (TLimit 3000) true false = Some true /\
  full_test 26 60 100 60 60 2 ex_bar 1 TFalse false false = Some false.
Proof. split; [apply C19_bar_case|]. split; vm_compute; reflexivity. Qed.

(** ** The order of the tasks *)
Theorem C19_bar_order : forall fuel fuel' m ts ts' b b', Forall wf_task ts -> Permutation ts ts' ->
  bar_test fuel m ts = Some b -> bar_test fuel' m ts' = Some b' -> b = b'.
Proof. exact bar_perm. Qed.
Print Assumptions C19_bar_order.

Theorem C19_ffdbf_order : forall fuel fuel' pfuel pfuel' eps g m ts ts' b b', Forall wf_task ts -> Forall constrained ts -> Permutation ts ts' ->
  ffdbf_test fuel pfuel eps g m ts = Some b -> ffdbf_test fuel' pfuel' eps g m ts' = Some b' -> b = b'.
Proof. intros fuel fuel' pfuel pfuel' eps g m ts ts' b b' Hw Hc. apply ffdbf_perm. apply ok_of; assumption. Qed.
Print Assumptions C19_ffdbf_order.

(** The combined test without RTA (with RTA: C19_order_refuted). *)
Theorem C19_order : forall fuel ffuel bfuel dfuel pfuel fuel' ffuel' bfuel' dfuel' pfuel' m ts ts' step th wf b b', Forall wf_task ts -> Permutation ts ts' ->
  full_test fuel ffuel bfuel dfuel pfuel m ts step th false wf = Some b ->
  full_test fuel' ffuel' bfuel' dfuel' pfuel' m ts' step th false wf = Some b' -> b = b'.
Proof.
  intros fuel ffuel bfuel dfuel pfuel fuel' ffuel' bfuel' dfuel' pfuel' m ts ts' step th wf b b' Hw Hp H H'. unfold full_test in *.
  pose proof (py_order fuel ffuel fuel' ffuel' (fun _ _ => bar_test bfuel' m ts') (fun _ _ => ffdbf_test dfuel' pfuel' (1 # 10) 50 m ts') m ts ts' step th wf Hp eq_refl eq_refl) as E.
  unfold is_schedulable_py in E, H, H'. rewrite H' in E. clear H'.
  destruct (_ || _); [congruence|]. cbv zeta in *. destruct (_ && _); [congruence|]. destruct (1 <? m); [|congruence].
  destruct (bak_test m ts); [congruence|]. destruct (only_constrained_deadlines ts) eqn:Hc; [|congruence]. destruct (gfb_test m ts); [congruence|].
  assert (K : Forall constrained ts).
  { unfold only_constrained_deadlines in Hc. rewrite forallb_forall in Hc. apply Forall_forall. intros t Ht. specialize (Hc t Ht). unfold constrained_deadline in Hc. unfold constrained. lia. }
  assert (F : forall r r', (if wf then ffdbf_test dfuel pfuel (1 # 10) 50 m ts else Some false) = Some r -> (if wf then ffdbf_test dfuel' pfuel' (1 # 10) 50 m ts' else Some false) = Some r' -> r = r').
  { intros r r' F1 F2. destruct wf; [|congruence]. eapply C19_ffdbf_order; eassumption. }
  destruct (should_use_baruah_test th ts m); [|apply F; assumption].
  destruct (bar_test bfuel m ts) as [x|] eqn:B; [|discriminate]. destruct (bar_test bfuel' m ts') as [x'|] eqn:B'; [|discriminate].
  pose proof (C19_bar_order _ _ _ _ _ _ _ Hw Hp B B') as X. subst x'. destruct x; [congruence|]. apply F; assumption.
Qed.
Print Assumptions C19_order.

(** Both orders are decided by FF-DBF after the same changes of sigma. *)
Example C19_order_example : full_test 1 1 100 60 60 2 ex_ff 1 TFalse false true = Some true /\
  full_test 1 1 100 60 60 2 (rev ex_ff) 1 TFalse false true = Some true /\ ex_ff <> rev ex_ff /\
  bar_test 100 2 [Task 1 3 3; Task 2 6 5; Task 1 4 2] = Some true /\ bar_test 100 2 [Task 1 4 2; Task 2 6 5; Task 1 3 3] = Some true.
Proof. repeat split; try (vm_compute; reflexivity). discriminate. Qed.

(** ** Deadlines beyond the period *)

Lemma burst_misses : forall ts m l, Forall wf_task ts -> NoDup l -> (m < length l)%nat ->
  (forall i, In i l -> (i < length ts)%nat /\ t_cost (nth i ts dt) = 1 /\ t_deadline (nth i ts dt) = 1) ->
  ~ gedf_schedulable (map e_of ts) m.
Proof.
  intros ts m l Hw Hn Hlen Hl H. pose proof (wf_e_of ts Hw) as Hwf. set (es := map e_of ts) in *.
  destruct (gedf_exists es m (synchronous es) Hwf (synchronous_legal es Hwf)) as [sc [V G]].
  assert (Hin : forall i, In i l -> In (i, 0%nat) (sc 0%nat)).
  { intros i Hi. destruct (Hl i Hi) as [A [B C]].
    assert (Hie : (i < length es)%nat) by (unfold es; rewrite map_length; assumption).
    destruct (H (synchronous es) sc (synchronous_legal es Hwf) V G (i, 0%nat) (e_of (nth i ts dt))) as [q [Q1 Q2]].
    - cbn [fst]. unfold es. apply map_nth_error. apply nth_error_nth'. assumption.
    - cbn [fst snd] in *. unfold gcompleted in Q2. cbn [fst snd] in Q2.
      destruct (synchronous_spec es i 0 Hwf Hie) as [A1 [_ A3]]. cbv zeta in *.
      assert (E : nth i es (ETask 0 1 0) = e_of (nth i ts dt)).
      { unfold es. change (ETask 0 1 0) with (e_of dt). apply map_nth. }
      fold (et es i) in E. unfold et in *. rewrite E in A1, A3. cbn [e_of e_cost e_period e_deadline] in *.
      assert (Hq : (q <= 1)%nat) by lia. unfold gservice in Q2. destruct q as [|[|q]]; [cbn [sumf] in Q2; lia| |lia].
      cbn [sumf] in Q2. destruct (gruns sc (i, 0%nat) 0) eqn:R; [|cbn [b2z] in Q2; lia].
      apply gruns_iff. assumption. }
  destruct (V 0%nat) as [L _].
  assert (X : (length (map (fun i : nat => (i, 0%nat)) l) <= length (sc 0%nat))%nat).
  { apply NoDup_incl_length.
    - apply FinFun.Injective_map_NoDup; [|assumption]. intros x y E. injection E. auto.
    - intros x Hx. apply in_map_iff in Hx. destruct Hx as [i [<- Hi]]. apply Hin. assumption. }
  rewrite map_length in X. lia.
Qed.

(** The term T_i - D_i is not clamped at 0, so a task with a long deadline makes
    beta negative and hides the demand of the others: three tasks with
    cost = deadline = 1 are accepted on two processors. *)
Theorem C19_bak_arbitrary_refuted : exists (m : nat) ts, (2 <= m)%nat /\ Forall wf_task ts /\ Forall feasible ts /\
  bak_test (Z.of_nat m) ts = true /\
  is_schedulable_py 26 60 (bar_test 100) no_test (Z.of_nat m) ts 1 (TLimit 3000) true false = Some true /\
  ~ gedf_schedulable (map e_of ts) m.
Proof.
  exists 2%nat, [Task 1 10 1; Task 1 10 1; Task 1 10 1; Task 1 2 1000]. split; [lia|]. split; [all_lia|]. split; [all_lia|].
  split; [vm_compute; reflexivity|]. split; [vm_compute; reflexivity|].
  apply burst_misses with (l := [0; 1; 2]%nat); [all_lia| |cbn; lia|].
  - repeat constructor; cbn; intuition discriminate.
  - intros i Hi. cbn in Hi. destruct Hi as [<-|[<-|[<-|[]]]]; cbn; auto with arith; (split; [lia|]; split; reflexivity).
Qed.
Print Assumptions C19_bak_arbitrary_refuted.
