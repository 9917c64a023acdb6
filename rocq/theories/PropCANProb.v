(** C67: the probabilities of the CAN analysis. *)
From Coq Require Import Reals Lra ZArith List Bool Arith Lia.
From Verif Require Import Base ModelCAN SpecCAN ProofCAN PropCAN ModelCANProb SpecCANProb ProofCANProb.
Import ListNotations.
Local Open Scope R_scope.

Lemma zmax_above l x : In x l -> (x <= zmax l)%Z.
Proof. induction l as [|y l IH]; [intros []|]. cbn [In]. unfold zmax. cbn [fold_right]. fold (zmax l). intros [->|H]; [lia|]. specialize (IH H). lia. Qed.

Section WF.
  Variable b : canbus.
  Variable ms : list cmsg.
  Variable m : cmsg.
  Hypothesis WB : wf_bus b.
  Hypothesis WM : forall x, In x ms -> wf_msg x.
  Hypothesis Hm : In m ms.

  Lemma win_large n : in_time m (wctt b ms m (Z.of_nat n)) -> (Z.of_nat n < wctt b ms m (Z.of_nat n))%Z.
  Proof.
    intros H. destruct (wctt_ok b ms m (Z.of_nat n) WB WM ltac:(lia) _ (le_n _)) as [_ [[W0 _] [_ E]]]. rewrite <- (E H). unfold recurrence.
    pose proof (zmax_nonneg (map (transfer_delay b) (lower ms m))). destruct WB as [T [I Er]].
    assert (P : forall k, In k ms -> (1 <= transfer_delay b k)%Z) by (intros k Hk; pose proof (transfer_pos b k WB (WM k Hk)); lia).
    assert (X : (0 <= zsum (map (fun k => cdiv (wctt b ms m (Z.of_nat n) - transfer_delay b m + cm_jitter k + b_tau b) (cm_period k) * (transfer_delay b k + b_ifs b)) (higher ms m)))%Z).
    { apply zsum_nonneg. intros x Hx. apply in_map_iff in Hx. destruct Hx as [k [<- Hk]]. apply filter_In in Hk. destruct Hk as [Hk _]. pose proof (P k Hk).
      destruct (WM k Hk) as [_ [Q J]]. apply Z.mul_nonneg_nonneg; [|lia]. apply cdiv_nonneg; lia. }
    assert (Y : (1 <= zmax (map (transfer_delay b) (higher_or_equal ms m)))%Z).
    { transitivity (transfer_delay b m); [apply P; exact Hm|]. apply zmax_above. apply in_map. apply filter_In. split; [exact Hm|]. apply Z.leb_refl. }
    pose proof (P m Hm). nia.
  Qed.
  Lemma win_ends : ~ in_time m (wctt b ms m (Z.of_nat (Z.to_nat (cm_deadline m)))).
  Proof.
    intros H. pose proof (win_large _ H) as L. unfold in_time in H. destruct (WM m Hm) as [_ [_ J]]. lia.
  Qed.
End WF.

(** get_prob_poisson is the Poisson distribution. *)
Theorem C67_poisson : forall k len mfr, 0 <= mfr * len -> get_prob_poisson k len mfr = poisson (mfr * len) k.
Proof. exact get_poisson_spec. Qed.
Print Assumptions C67_poisson.

Example C67_poisson_case : get_prob_poisson 2 3 2 = 18 * exp (-6) /\ get_prob_poisson 2 3 0 = 0 /\ get_prob_poisson 0 3 0 = 1.
Proof.
  rewrite !C67_poisson by lra. rewrite poisson_0. unfold poisson. replace (2 * 3) with 6 by lra. replace (0 * 3) with 0 by lra. rewrite Ropp_0, exp_0.
  replace (INR (fact 2)) with 2 by (cbn; lra). replace (-6) with (- (6)) by lra. cbn [pow]. repeat split; lra.
Qed.

(** a history of queries for given numbers of faults: the final prob_vec and the answers *)
Fixpoint queries (fuel : nat) (b : canbus) (ms : list cmsg) (m : cmsg) (mfr : R) (qs : list nat) (vec : list R) : option (list R * list R) :=
  match qs with
  | [] => Some (vec, [])
  | n :: r => match br_prob_schedulable fuel b ms m mfr (Some n) vec with
              | BrDone vec' p => match queries fuel b ms m mfr r vec' with Some (v, ps) => Some (v, p :: ps) | None => None end
              | _ => None
              end
  end.

(** Whatever numbers of faults a message was asked about before, and in whichever
    order: no assertion fails, and the answer for [n] faults is the probability
    that [n] is the first number such that no more than that many faults fall into
    the window of the analysis for [n] faults; 0 if [n] faults are not tolerated. *)
Theorem C67_exact : forall b ms m mfr fuel qs, wf_bus b -> (forall x, In x ms -> wf_msg x) -> In m ms -> 0 <= mfr ->
  (forall n, In n qs -> (n < fuel)%nat) ->
  exists vec ps, queries fuel b ms m mfr qs [] = Some (vec, ps) /\ Forall2 (fun n p => 0 <= p <= 1 /\
    ((in_time m (wctt b ms m (Z.of_nat n)) /\ prob_first (parts mfr (fun j => wctt b ms m (Z.of_nat j))) n p) \/
     (~ in_time m (wctt b ms m (Z.of_nat n)) /\ p = 0))) qs ps.
Proof.
  intros b ms m mfr fuel qs WB WM Hm R F. pose proof (WM m Hm) as Wm.
  enough (G : forall vec, good b ms m mfr vec -> exists vec' ps, queries fuel b ms m mfr qs vec = Some (vec', ps) /\ Forall2 (fun n p => 0 <= p <= 1 /\
    ((in_time m (wctt b ms m (Z.of_nat n)) /\ prob_first (parts mfr (fun j => wctt b ms m (Z.of_nat j))) n p) \/
     (~ in_time m (wctt b ms m (Z.of_nat n)) /\ p = 0))) qs ps) by (apply G, good_nil).
  induction qs as [|n qs IH]; intros vec G; cbn [queries]; [do 2 eexists; split; [reflexivity|constructor]|].
  destruct (query_spec b ms m mfr WB WM Wm R fuel n vec G) as [vec' [p [E [G' C]]]]; [apply F; left; reflexivity|]. rewrite E.
  destruct (IH ltac:(intros; apply F; right; assumption) vec' G') as [v [ps [E' Q]]]. rewrite E'. do 2 eexists. split; [reflexivity|]. constructor; [|exact Q].
  destruct C as [[I ->]|[I ->]].
  - split; [split; [exact (proj1 (entry_bounds b ms m mfr WB WM Wm R n I))|exact (entry_le1 b ms m mfr WB WM Wm R n I)]|]. left. split; [exact I|]. apply first_prob.
  - split; [lra|]. right. split; [exact I|reflexivity].
Qed.
Print Assumptions C67_exact.

(** the sum of the probabilities over all tolerated numbers of faults *)
Definition cumulative (b : canbus) (ms : list cmsg) (m : cmsg) (mfr : R) (p : R) : Prop :=
  exists N q, (forall i, in_time m (wctt b ms m (Z.of_nat i)) <-> (i < N)%nat) /\
    (forall n, (n < N)%nat -> prob_first (parts mfr (fun j => wctt b ms m (Z.of_nat j))) n (q n)) /\ p = rsum q (seq 0 N).

(** The cumulative query of a fresh message terminates without a failed assertion
    and returns the exact sum: the guards against sums above 1 never act. *)
Theorem C67_cumulative : forall b ms m mfr fuel, wf_bus b -> (forall x, In x ms -> wf_msg x) -> In m ms -> 0 <= mfr ->
  (Z.to_nat (cm_deadline m) < fuel)%nat ->
  exists vec p, br_prob_schedulable fuel b ms m mfr None [] = BrDone vec p /\ 0 <= p <= 1 /\ cumulative b ms m mfr p.
Proof.
  intros b ms m mfr fuel WB WM Hm R F. pose proof (WM m Hm) as Wm.
  destruct (cumulative_fresh b ms m mfr WB WM Wm R fuel) as [N [vec [E [G [L I]]]]].
  { exists (Z.to_nat (cm_deadline m)). split; [exact F|]. apply win_ends; assumption. }
  exists vec, (nsum (first (parts mfr (win b ms m))) N). split; [exact E|]. split; [split|].
  - apply nsum_nonneg. intros i Hi. apply entry_bounds; try assumption. apply I. exact Hi.
  - destruct N as [|N]; [unfold nsum; cbn; lra|]. apply entry_bounds; try assumption. apply I. lia.
  - exists N, (first (parts mfr (win b ms m))). split; [exact I|]. split; [intros n _; apply first_prob|reflexivity].
Qed.
Print Assumptions C67_cumulative.

(** The probability in the specification is unique, so the above determine the answers. *)
Theorem C67_determined : forall d n p q, prob_first d n p -> prob_first d n q -> p = q.
Proof. intros d n p q Hp Hq. rewrite (prob_first_unique d n p Hp), (prob_first_unique d n q Hq). reflexivity. Qed.
Print Assumptions C67_determined.

(** With a positive fault rate is_schedulable answers exactly whether the deadline
    is met with the given number of faults, whatever was asked before. *)
Theorem C67_is_schedulable : forall b ms m mfr fuel n qs vec ps, wf_bus b -> (forall x, In x ms -> wf_msg x) -> In m ms -> 0 < mfr ->
  (n < fuel)%nat -> (forall k, In k qs -> (k < fuel)%nat) -> queries fuel b ms m mfr qs [] = Some (vec, ps) ->
  exists vec', br_is_schedulable_prob fuel b ms m mfr n vec = Some (vec', br_is_schedulable b ms m n).
Proof.
  intros b ms m mfr fuel n qs vec ps WB WM Hm R F Fq Q. pose proof (WM m Hm) as Wm. assert (R' : 0 <= mfr) by lra.
  assert (G : good b ms m mfr vec).
  { clear n F. enough (H : forall v0, good b ms m mfr v0 -> forall v p, queries fuel b ms m mfr qs v0 = Some (v, p) -> good b ms m mfr v) by (apply (H [] (good_nil b ms m mfr) _ _ Q)).
    clear Q. induction qs as [|k qs IH]; intros v0 G0 v p; cbn [queries]; [intros E; injection E as <- <-; exact G0|].
    destruct (query_spec b ms m mfr WB WM Wm R' fuel k v0 G0) as [v1 [p1 [E [G1 _]]]]; [apply Fq; left; reflexivity|]. rewrite E.
    destruct (queries fuel b ms m mfr qs v1) as [[v2 ps2]|] eqn:E2; [|discriminate]. intros X. injection X as <- <-.
    exact (IH ltac:(intros; apply Fq; right; assumption) v1 G1 _ _ E2). }
  destruct (query_spec b ms m mfr WB WM Wm R' fuel n vec G F) as [vec' [p [E [_ C]]]]. exists vec'. unfold br_is_schedulable_prob. rewrite E. f_equal. f_equal.
  pose proof (br_schedulable_iff b ms m n WB WM) as I. destruct C as [[T ->]|[T ->]].
  - assert (P : 0 < first (parts mfr (win b ms m)) n).
    { rewrite <- (first_dd b ms m mfr n n) by lia. apply first_pos; [apply dd_nonneg; assumption|]. unfold dd, parts, cap. cbn [Nat.min].
      apply Rmult_lt_0_compat; [exact R|]. apply IZR_lt. pose proof (win_large b ms m WB WM Hm 0 (in_time_down b ms m WB WM 0 n ltac:(lia) T)). unfold win. cbn in *. lia. }
    destruct (Req_EM_T (first (parts mfr (win b ms m)) n) 0) as [X|_]; [lra|]. symmetry. apply I. exact T.
  - destruct (Req_EM_T 0 0) as [_|X]; [|lra]. destruct (br_is_schedulable b ms m n) eqn:B; [|reflexivity]. exfalso. apply T. apply I. reflexivity.
Qed.
Print Assumptions C67_is_schedulable.

(** The hypotheses hold for the bus of C35: message a is answered 267 for no fault;
    at one fault in 100000 bit times the answers for 0 and 1 faults are as follows. *)
Example C67_case : wf_bus ex_bus /\ (forall x, In x ex_ms -> wf_msg x) /\ In ex_a ex_ms /\
  queries 5 ex_bus ex_ms ex_a (1 / 100000) [0%nat; 1%nat; 0%nat] [] <> None /\
  (exists vec ps, queries 5 ex_bus ex_ms ex_a (1 / 100000) [0%nat; 1%nat; 0%nat] [] = Some (vec, ps) /\
     ps = [exp (- (267 / 100000)); 0; exp (- (267 / 100000))]).
Proof.
  assert (H : exists vec ps, queries 5 ex_bus ex_ms ex_a (1 / 100000) [0%nat; 1%nat; 0%nat] [] = Some (vec, ps) /\
     ps = [exp (- (267 / 100000)); 0; exp (- (267 / 100000))]).
  { destruct (C67_exact ex_bus ex_ms ex_a (1 / 100000) 5 [0%nat; 1%nat; 0%nat] ex_wf_bus ex_wf_msg (or_introl eq_refl) ltac:(lra)) as [vec [ps [E F]]].
    { intros n [<-|[<-|[<-|[]]]]; lia. }
    exists vec, ps. split; [exact E|].
    assert (W0 : wctt ex_bus ex_ms ex_a (Z.of_nat 0) = 267%Z) by reflexivity. assert (W1 : wctt ex_bus ex_ms ex_a (Z.of_nat 1) = 430%Z) by reflexivity.
    assert (P0 : forall p, prob_first (parts (1 / 100000) (fun j => wctt ex_bus ex_ms ex_a (Z.of_nat j))) 0 p -> p = exp (- (267 / 100000))).
    { intros p Hp. rewrite (prob_first_unique _ _ _ Hp). unfold first. cbn [late]. rewrite poisson_0. f_equal. unfold parts. rewrite W0. lra. }
    inversion F as [|? p0 ? ps0 [_ C0] F0]; subst. inversion F0 as [|? p1 ? ps1 [_ C1] F1]; subst. inversion F1 as [|? p2 ? ps2 [_ C2] F2]; subst. inversion F2; subst.
    unfold in_time in *. rewrite W0 in C0, C2. rewrite W1 in C1. cbn [ex_a cm_jitter cm_deadline] in *.
    destruct C0 as [[_ C0]|[C0 _]]; [|lia]. destruct C1 as [[C1 _]|[_ C1]]; [lia|]. destruct C2 as [[_ C2]|[C2 _]]; [|lia].
    rewrite (P0 _ C0), (P0 _ C2), C1. reflexivity. }
  split; [exact ex_wf_bus|]. split; [exact ex_wf_msg|]. split; [left; reflexivity|]. split; [|exact H].
  destruct H as [v [ps [E _]]]. rewrite E. discriminate.
Qed.

(** A second cumulative query of the same message starts again at 0 faults but keeps
    the entries of the first: it counts every probability twice. *)
Theorem C67_repeated_refuted : exists b ms m mfr vec p vec' p', wf_bus b /\ (forall x, In x ms -> wf_msg x) /\ In m ms /\ 0 < mfr /\
  br_prob_schedulable 2 b ms m mfr None [] = BrDone vec p /\ cumulative b ms m mfr p /\
  br_prob_schedulable 2 b ms m mfr None vec = BrDone vec' p' /\ p' = 2 * p /\ p < p'.
Proof.
  exists ex_bus, ex_ms, ex_a, (/ 267). 
  assert (W0 : wctt ex_bus ex_ms ex_a (Z.of_nat 0) = 267%Z) by reflexivity. assert (W1 : wctt ex_bus ex_ms ex_a (Z.of_nat 1) = 430%Z) by reflexivity.
  assert (R : 0 < / 267) by lra.
  assert (P : get_prob_poisson 0 (IZR 267) (/ 267) = exp (-1)).
  { rewrite C67_poisson by lra. rewrite poisson_0. f_equal. lra. }
  assert (X : 2 * exp (-1) <= 1).
  { pose proof (exp_ineq1_le 1) as I. assert (Y : exp (-1) * exp 1 = 1) by (rewrite <- exp_plus; replace (-1 + 1) with 0 by lra; apply exp_0). pose proof (exp_pos (-1)). nra. }
  pose proof (exp_pos (-1)) as XP.
  assert (L : forall vec, br_loop 2 ex_bus ex_ms ex_a (/ 267) None 0 vec = inl (vec ++ [exp (-1)])).
  { intros vec. cbn [br_loop]. rewrite W0, W1. cbn [ex_a cm_deadline cm_jitter Z.add Z.ltb Z.compare Pos.compare Pos.compare_cont]. unfold br_error. cbn [seq fold_left].
    rewrite P, Rminus_0_r. destruct (Rle_lt_dec (exp (-1)) 1); [reflexivity|lra]. }
  exists [exp (-1)], (exp (-1)), [exp (-1); exp (-1)], (2 * exp (-1)).
  split; [exact ex_wf_bus|]. split; [exact ex_wf_msg|]. split; [left; reflexivity|]. split; [exact R|].
  unfold br_prob_schedulable. rewrite !L. cbn [app]. unfold br_finish. cbn [br_sum]. rewrite Rplus_0_l.
  destruct (Rle_lt_dec (exp (-1)) 1) as [_|]; [|lra]. rewrite Rmin_left by lra. split; [destruct (Rle_lt_dec (exp (-1)) 1); [reflexivity|lra]|]. split.
  - exists 1%nat, (fun _ => exp (-1)). split.
    + intros i. split.
      * intros H. destruct i as [|i]; [lia|]. exfalso. pose proof (wctt_monotone ex_bus ex_ms ex_a (Z.of_nat 1) (Z.of_nat (S i)) ex_wf_bus ex_wf_msg ltac:(lia) H) as M.
        rewrite W1 in M. unfold in_time in H. cbn [ex_a cm_deadline cm_jitter] in H. lia.
      * intros H. assert (i = 0)%nat by lia. subst i. unfold in_time. rewrite W0. cbn. lia.
    + split; [|cbn; lra]. intros n Hn. assert (n = 0)%nat by lia. subst n.
      pose proof (first_prob (parts (/ 267) (fun j => wctt ex_bus ex_ms ex_a (Z.of_nat j))) 0) as F. unfold first in F. cbn [late] in F. rewrite poisson_0 in F.
      unfold parts at 2 in F. rewrite W0 in F. replace (- (/ 267 * 267)) with (-1) in F by lra. exact F.
  - destruct (Rle_lt_dec (exp (-1) + exp (-1)) 1) as [_|]; [|lra]. split; [|split; lra].
    destruct (Rle_lt_dec (exp (-1) + exp (-1)) 1) as [_|]; [|lra]. rewrite Rmin_left by lra. f_equal. lra.
Qed.
Print Assumptions C67_repeated_refuted.

(** Without faults (rate 0) is_schedulable denies that a message tolerates one
    fault although its deadline is met with one fault. *)
Theorem C67_rate_zero_refuted : exists b ms m, wf_bus b /\ (forall x, In x ms -> wf_msg x) /\ In m ms /\
  br_is_schedulable b ms m 1 = true /\ exists vec, br_is_schedulable_prob 5 b ms m 0 1 [] = Some (vec, false).
Proof.
  set (big := CMsg 0 1 8 1000 1000 0). exists ex_bus, [big], big.
  assert (WM : forall x, In x [big] -> wf_msg x) by (intros x [<-|[]]; unfold wf_msg; cbn; lia).
  split; [exact ex_wf_bus|]. split; [exact WM|]. split; [left; reflexivity|]. split; [reflexivity|].
  destruct (query_spec ex_bus [big] big 0 ex_wf_bus WM (WM big (or_introl eq_refl)) (Rle_refl 0) 5 1 [] (good_nil _ _ _ _) ltac:(lia)) as [vec [p [E [_ C]]]].
  exists vec. unfold br_is_schedulable_prob. rewrite E. f_equal. f_equal.
  assert (Z : p = 0).
  { destruct C as [[_ ->]|[_ ->]]; [|reflexivity]. unfold first. cbn [late]. unfold conv. cbn [seq]. unfold nsum, rsum. cbn [seq fold_right Nat.ltb Nat.leb Nat.sub].
    unfold parts, poisson. rewrite !Rmult_0_l. cbn [pow]. unfold Rdiv. rewrite !Rmult_0_l, !Rmult_0_r, !Rmult_0_l. lra. }
  destruct (Req_EM_T p 0) as [_|X]; [reflexivity|contradiction].
Qed.
Print Assumptions C67_rate_zero_refuted.
