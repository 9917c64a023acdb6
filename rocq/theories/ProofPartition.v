(** Proofs about the independent task subsets of locking/partition.py. *)
From Coq Require Import ZArith List Bool Arith Relations Lia Permutation.
From Verif Require Import ModelResources SpecResources ProofResources.
Import ListNotations.
Local Open Scope nat_scope.

Section Sound.
Variable tasks : list (nat * list nat).

Definition uses (t r : nat) : Prop := exists a, In (t, a) tasks /\ In r a.
Notation dep := (dependent tasks).

Lemma dep_refl t : dep t t. Proof. apply rst_refl. Qed.
Lemma dep_sym t u : dep t u -> dep u t. Proof. apply rst_sym. Qed.
Lemma dep_trans t u v : dep t u -> dep u v -> dep t v. Proof. apply rst_trans. Qed.
Lemma dep_share t u r : uses t r -> uses u r -> dep t u.
Proof. intros [a [A1 A2]] [b [B1 B2]]. apply rst_step. exists a, b, r. auto. Qed.

Definition known (t : nat) : Prop := exists a, In (t, a) tasks.

Definition pinv (st : pstate) : Prop :=
  (forall p t u, In t (nth p (p_heap st) []) -> In u (nth p (p_heap st) []) -> dep t u) /\
  (forall p t, In t (nth p (p_heap st) []) -> known t) /\
  (forall r p, glookup (p_res st) r = Some p -> p < length (p_heap st) /\ (exists u, uses u r)) /\
  (forall r p t u, glookup (p_res st) r = Some p -> In t (nth p (p_heap st) []) -> uses u r -> dep t u) /\
  (forall r s p t u, glookup (p_res st) r = Some p -> glookup (p_res st) s = Some p -> uses t r -> uses u s -> dep t u).

Lemma nth_snoc_nil (h : list (list nat)) x p : In x (nth p (h ++ [[]]) []) -> In x (nth p h []).
Proof.
  destruct (Nat.ltb_spec p (length h)) as [L|L]; [rewrite app_nth1 by exact L; auto|].
  rewrite app_nth2 by exact L. destruct (p - length h) as [|[|k]]; intros [].
Qed.

Lemma touch_inv st r st' p : (exists u, uses u r) -> pinv st -> touch st r = (st', p) ->
  pinv st' /\ glookup (p_res st') r = Some p /\ (forall s, s <> r -> glookup (p_res st') s = glookup (p_res st) s) /\
  (forall s q, glookup (p_res st) s = Some q -> glookup (p_res st') s = Some q).
Proof.
  intros U [I1 [I2 [I3 [I4 I5]]]] T. unfold touch in T. destruct (glookup (p_res st) r) as [q|] eqn:L.
  - injection T as <- <-. split; [exact (conj I1 (conj I2 (conj I3 (conj I4 I5))))|].
    split; [exact L|]. split; auto.
  - injection T as <- <-. unfold pinv. cbn [p_heap p_res]. split; [|split; [rewrite glookup_cons, Nat.eqb_refl; reflexivity|split]].
    + split; [|split; [|split; [|split]]].
      * intros p t u Ht Hu. apply (I1 p); apply nth_snoc_nil; assumption.
      * intros p t Ht. apply (I2 p). apply nth_snoc_nil. exact Ht.
      * intros s p. rewrite glookup_cons, app_length. cbn [length]. destruct (Nat.eqb_spec r s) as [->|D]; intros E.
        -- injection E as <-. split; [lia|exact U].
        -- destruct (I3 _ _ E). split; [lia|assumption].
      * intros s p t u. rewrite glookup_cons. destruct (Nat.eqb_spec r s) as [->|D]; intros E Ht Hu.
        -- injection E as <-. rewrite app_nth2, Nat.sub_diag in Ht by lia. destruct Ht.
        -- apply (I4 s p); [exact E|apply nth_snoc_nil; exact Ht|exact Hu].
      * intros s s' p t u. rewrite !glookup_cons. destruct (Nat.eqb_spec r s) as [Q1|D]; destruct (Nat.eqb_spec r s') as [Q2|D']; intros E E' Ht Hu.
        -- rewrite <- Q1 in Ht. rewrite <- Q2 in Hu. apply dep_share with r; assumption.
        -- injection E as <-. destruct (I3 _ _ E'). lia.
        -- injection E' as <-. destruct (I3 _ _ E). lia.
        -- apply (I5 s s' p); assumption.
    + intros s D. rewrite glookup_cons. destruct (Nat.eqb_spec r s); [congruence|reflexivity].
    + intros s q E. rewrite glookup_cons. destruct (Nat.eqb_spec r s); [congruence|exact E].
Qed.

(** extending a cell by elements that depend on all users of its resources *)
Lemma cell_inv st p (new : list nat) : pinv st -> p < length (p_heap st) ->
  (forall t u, In t new -> In u new -> dep t u) -> (forall t, In t new -> known t) ->
  (forall r t u, glookup (p_res st) r = Some p -> In t new -> uses u r -> dep t u) ->
  (exists r, glookup (p_res st) r = Some p) ->
  pinv (PS (set_cell (p_heap st) p (set_union (nth p (p_heap st) []) new)) (p_res st) (p_task st)).
Proof.
  intros [I1 [I2 [I3 [I4 I5]]]] B N1 N2 N3 [r0 R0]. destruct (I3 _ _ R0) as [_ [u0 U0]].
  unfold pinv. cbn [p_heap p_res]. split; [|split; [|split; [|split]]].
  - intros q t u. rewrite nth_set_cell by exact B. destruct (Nat.eqb_spec q p) as [->|D]; [|apply I1].
    rewrite !set_union_In. intros [Ht|Ht] [Hu|Hu].
    + apply (I1 p); assumption.
    + apply dep_trans with u0; [apply (I4 r0 p); assumption|apply dep_sym, (N3 r0); assumption].
    + apply dep_trans with u0; [apply (N3 r0); assumption|apply dep_sym, (I4 r0 p); assumption].
    + apply N1; assumption.
  - intros q t. rewrite nth_set_cell by exact B. destruct (Nat.eqb_spec q p) as [->|D]; [|apply I2].
    rewrite set_union_In. intros [H|H]; [apply (I2 p); exact H|apply N2; exact H].
  - intros r q L. rewrite set_cell_length. apply I3. exact L.
  - intros r q t u L. rewrite nth_set_cell by exact B. destruct (Nat.eqb_spec q p) as [->|D]; [|apply I4; exact L].
    rewrite set_union_In. intros [H|H] U; [apply (I4 r p); assumption|apply (N3 r); assumption].
  - exact I5.
Qed.

Lemma merge_inv t0 first others : uses t0 first -> (forall o, In o others -> uses t0 o) -> forall st, pinv st -> pinv (merge_loop st first others).
Proof.
  intros U0. induction others as [|o rest IH]; intros H st I; [exact I|]. cbn [merge_loop].
  destruct (touch st first) as [st1 p] eqn:T1. destruct (touch_inv st first st1 p (ex_intro _ t0 U0) I T1) as [J1 [L1 [K1 M1]]].
  assert (Uo : uses t0 o) by (apply H; left; reflexivity).
  destruct (touch st1 o) as [st2 q] eqn:T2. destruct (touch_inv st1 o st2 q (ex_intro _ t0 Uo) J1 T2) as [J2 [L2 [K2 M2]]].
  pose proof (M2 _ _ L1) as L3. clear M1 K1. apply IH; [intros; apply H; right; assumption|].
  assert (A : pinv (PS (set_cell (p_heap st2) p (set_union (nth p (p_heap st2) []) (nth q (p_heap st2) []))) (p_res st2) (p_task st2))).
  { pose proof J2 as [I1 [I2 [I3 [I4 I5]]]]. destruct (I3 _ _ L3) as [B _]. apply cell_inv; [exact J2|exact B| | | |].
    - intros t u Ht Hu. apply (I1 q); assumption.
    - intros t Ht. apply (I2 q). exact Ht.
    - intros r t u L Ht U. apply dep_trans with t0; [apply (I4 o q); assumption|]. apply (I5 first r p); assumption.
    - exists first. exact L3. }
  pose proof A as [I1 [I2 [I3 [I4 I5]]]]. unfold pinv. cbn [p_heap p_res p_task] in *. split; [exact I1|]. split; [exact I2|]. split; [|split].
  - intros r x. rewrite glookup_cons. destruct (Nat.eqb_spec o r) as [->|D]; intros E; [|apply I3; exact E].
    injection E as <-. split; [apply (I3 first); exact L3|exists t0; exact Uo].
  - intros r x t u. rewrite glookup_cons. destruct (Nat.eqb_spec o r) as [->|D]; intros E Ht U; [|apply (I4 r x); assumption].
    injection E as <-. apply dep_trans with t0; [apply (I4 first p); assumption|apply dep_share with r; assumption].
  - intros r s x t u. rewrite !glookup_cons. destruct (Nat.eqb_spec o r) as [Q1|D]; destruct (Nat.eqb_spec o s) as [Q2|D']; intros E E' Ht Hu.
    + rewrite <- Q1 in Ht. rewrite <- Q2 in Hu. apply dep_share with o; assumption.
    + injection E as <-. rewrite <- Q1 in Ht. apply dep_trans with t0; [apply dep_share with o; assumption|apply (I5 first s p); assumption].
    + injection E' as <-. rewrite <- Q2 in Hu. apply dep_trans with t0; [apply (I5 r first p); assumption|apply dep_share with o; assumption].
    + apply (I5 r s x); assumption.
Qed.

Lemma nth_snoc (h : list (list nat)) c x p : In x (nth p (h ++ [c]) []) -> In x (nth p h []) \/ (p = length h /\ In x c).
Proof.
  destruct (Nat.ltb_spec p (length h)) as [L|L]; [rewrite app_nth1 by exact L; auto|].
  rewrite app_nth2 by exact L. destruct (p - length h) as [|k] eqn:E; [right; split; [lia|assumption]|]. destruct k; intros [].
Qed.

Lemma comp_inv st t a : In (t, a) tasks -> pinv st -> pinv (comp_step st (t, a)).
Proof.
  intros Ht I. destruct a as [|r others]; cbn [comp_step].
  - destruct I as [I1 [I2 [I3 [I4 I5]]]]. unfold pinv. cbn [p_heap p_res].
    assert (O : forall p, length (p_heap st) <= p -> nth p (p_heap st) [] = []) by (intros; apply nth_overflow; assumption).
    split; [|split; [|split; [|split]]].
    + intros p x y Hx Hy. apply nth_snoc in Hx. apply nth_snoc in Hy. destruct Hx as [Hx|[-> [<-|[]]]]; destruct Hy as [Hy|[E [<-|[]]]].
      * apply (I1 p); assumption.
      * subst p. rewrite O in Hx by lia. destruct Hx.
      * rewrite O in Hy by lia. destruct Hy.
      * apply dep_refl.
    + intros p x Hx. apply nth_snoc in Hx. destruct Hx as [Hx|[_ [<-|[]]]]; [apply (I2 p); exact Hx|exists []; exact Ht].
    + intros s p L. rewrite app_length. cbn [length]. destruct (I3 _ _ L). split; [lia|assumption].
    + intros s p x u L Hx U. apply nth_snoc in Hx. destruct Hx as [Hx|[-> _]]; [apply (I4 s p); assumption|].
      destruct (I3 _ _ L). lia.
    + exact I5.
  - assert (U : forall o, In o (r :: others) -> uses t o) by (intros o Ho; exists (r :: others); auto).
    destruct (touch st r) as [st1 p] eqn:T1. destruct (touch_inv st r st1 p (ex_intro _ t (U r (or_introl eq_refl))) I T1) as [J1 [L1 _]].
    apply merge_inv with t; [apply U; left; reflexivity|intros o Ho; apply U; right; exact Ho|].
    pose proof J1 as [I1 [I2 [I3 [I4 I5]]]]. apply cell_inv; [exact J1|apply (I3 _ _ L1)| | | |].
    + intros x y [<-|[]] [<-|[]]. apply dep_refl.
    + intros x [<-|[]]. exists (r :: others). exact Ht.
    + intros s x u L [<-|[]] Hu. apply (I5 r s p); [exact L1|exact L|apply U; left; reflexivity|exact Hu].
    + exists r. exact L1.
Qed.

Lemma comp_fold l : (forall x, In x l -> In x tasks) -> forall st, pinv st -> pinv (fold_left comp_step l st).
Proof.
  induction l as [|[t a] r IH]; intros H st I; [exact I|]. cbn [fold_left]. apply IH; [intros; apply H; right; assumption|].
  apply comp_inv; [apply H; left; reflexivity|exact I].
Qed.

Lemma subsets_cells st torder : forall done s, In s (subsets_loop st torder done) -> exists p, s = nth p (p_heap st) [].
Proof.
  induction torder as [|t r IH]; intros done s; cbn [subsets_loop]; [intros []|].
  destruct (glookup (p_task st) t) as [p|]; [|apply IH]. destruct (existsb (Nat.eqb t) done); [apply IH|].
  intros [<-|H]; [exists p; reflexivity|apply (IH _ _ H)].
Qed.

Lemma subsets_sound iter order torder s t u : In s (find_independent_tasksubsets iter order torder tasks) ->
  In t s -> In u s -> dep t u /\ known t.
Proof.
  intros H Ht Hu. unfold find_independent_tasksubsets in H. destruct (subsets_cells _ _ _ _ H) as [p ->].
  unfold find_connected_components in *. cbn [p_heap] in *.
  assert (I : pinv (fold_left comp_step tasks (PS [] [] []))).
  { apply comp_fold; [auto|]. unfold pinv. cbn [p_heap p_res]. split; [|split; [|split; [|split]]].
    - intros p' x y Hx. destruct p'; destruct Hx.
    - intros p' x Hx. destruct p'; destruct Hx.
    - intros r q E. discriminate.
    - intros r q x y E. discriminate.
    - intros r r' q x y E. discriminate. }
  destruct I as [I1 [I2 _]]. split; [apply (I1 p); assumption|apply (I2 p); exact Ht].
Qed.
End Sound.

(** ** the loop over the tasks: classes that are closed are reported once *)
Lemma subsets_loop_spec st torder :
  (forall t p, glookup (p_task st) t = Some p -> In t (nth p (p_heap st) []) /\ forall u, In u (nth p (p_heap st) []) -> glookup (p_task st) u = Some p) ->
  forall done, (forall t p, In t done -> glookup (p_task st) t = Some p -> forall u, In u (nth p (p_heap st) []) -> In u done) ->
  (forall s, In s (subsets_loop st torder done) -> (forall u, In u s -> ~ In u done) /\ exists t p, glookup (p_task st) t = Some p /\ s = nth p (p_heap st) []) /\
  (forall t p, In t torder -> glookup (p_task st) t = Some p -> In t done \/ In (nth p (p_heap st) []) (subsets_loop st torder done)) /\
  (forall i j s s' t, nth_error (subsets_loop st torder done) i = Some s -> nth_error (subsets_loop st torder done) j = Some s' -> In t s -> In t s' -> i = j).
Proof.
  intros C. induction torder as [|t r IH]; intros done D; cbn [subsets_loop].
  - split; [intros s []|]. split; [intros t p []|]. intros i j s s' t H. destruct i; discriminate.
  - destruct (glookup (p_task st) t) as [p|] eqn:L.
    2: { destruct (IH done D) as [A [B E]]. split; [exact A|]. split; [|exact E].
         intros u q [<-|Hu] Lq; [congruence|apply B; assumption]. }
    destruct (existsb (Nat.eqb t) done) eqn:X.
    + apply existsb_In in X. destruct (IH done D) as [A [B E]]. split; [exact A|]. split; [|exact E].
      intros u q [<-|Hu] Lq; [left; exact X|apply B; assumption].
    + assert (X' : ~ In t done) by (rewrite <- existsb_In; congruence).
      set (c := nth p (p_heap st) []) in *.
      assert (N : forall u, In u c -> ~ In u done).
      { intros u Hu Hd. apply X'. destruct (C t p L) as [C1 C2]. apply (D u p Hd (C2 u Hu)). exact C1. }
      destruct (IH (done ++ c)) as [A [B E]].
      { intros u q Hu Lq w Hw. apply in_app_iff in Hu. apply in_app_iff. destruct Hu as [Hu|Hu].
        - left. apply (D u q); assumption.
        - right. destruct (C t p L) as [_ C2]. rewrite (C2 u Hu) in Lq. injection Lq as <-. exact Hw. }
      split; [|split].
      * intros s [<-|Hs]; [split; [exact N|exists t, p; auto]|]. destruct (A s Hs) as [A1 A2]. split; [|exact A2].
        intros u Hu Hd. apply (A1 u Hu). apply in_app_iff. left. exact Hd.
      * intros u q [<-|Hu] Lq.
        -- right. left. unfold c. congruence.
        -- destruct (B u q Hu Lq) as [H|H]; [|right; right; exact H]. apply in_app_iff in H. destruct H as [H|H]; [left; exact H|].
           right. left. destruct (C t p L) as [_ C2]. rewrite (C2 u H) in Lq. injection Lq as <-. reflexivity.
      * intros i j s s' u Hi Hj Hu Hu'. destruct i as [|i]; destruct j as [|j]; cbn [nth_error] in *; [reflexivity| | |].
        -- injection Hi as <-. exfalso. apply nth_error_In in Hj. destruct (A _ Hj) as [A1 _]. apply (A1 u Hu'). apply in_app_iff. right. exact Hu.
        -- injection Hj as <-. exfalso. apply nth_error_In in Hi. destruct (A _ Hi) as [A1 _]. apply (A1 u Hu). apply in_app_iff. right. exact Hu'.
        -- f_equal. apply (E i j s s' u); assumption.
Qed.

(** ** tasks with at most one resource *)
Section Single.
Variable tasks : list (nat * list nat).
Hypothesis names : NoDup (map fst tasks).
Hypothesis single : forall t a, In (t, a) tasks -> length a <= 1.

Lemma name_unique t a b : In (t, a) tasks -> In (t, b) tasks -> a = b.
Proof.
  intros A B. assert (forall l, NoDup (map fst l) -> In (t, a) l -> In (t, b) l -> a = b) as G.
  { clear. induction l as [|[u c] r IH]; intros N A B; [destruct A|]. cbn [map fst] in N. inversion N as [|? ? N1 N2]; subst.
    destruct A as [A|A]; destruct B as [B|B]; [congruence| | |apply IH; assumption].
    - injection A as -> ->. exfalso. apply N1. apply in_map_iff. exists (t, b). auto.
    - injection B as -> ->. exfalso. apply N1. apply in_map_iff. exists (t, a). auto. }
  apply (G tasks); assumption.
Qed.

Definition cellspec (st : pstate) (l : list (nat * list nat)) : Prop :=
  (forall r p, glookup (p_res st) r = Some p -> p < length (p_heap st) /\ (forall t, In t (nth p (p_heap st) []) <-> In (t, [r]) l)) /\
  (forall r t, In (t, [r]) l -> exists p, glookup (p_res st) r = Some p) /\
  (forall t p, glookup (p_task st) t = Some p -> p < length (p_heap st) /\ In (t, []) l /\ (forall u, In u (nth p (p_heap st) []) <-> u = t)) /\
  (forall t, In (t, []) l -> exists p, glookup (p_task st) t = Some p) /\
  (forall r t p, glookup (p_res st) r = Some p -> glookup (p_task st) t = Some p -> False) /\
  (forall r s p, glookup (p_res st) r = Some p -> glookup (p_res st) s = Some p -> r = s) /\
  (forall t u p, glookup (p_task st) t = Some p -> glookup (p_task st) u = Some p -> t = u).

Lemma cellspec_step st l t a : length a <= 1 -> ~ In t (map fst l) -> cellspec st l -> cellspec (comp_step st (t, a)) (l ++ [(t, a)]).
Proof.
  intros La Ft [I1 [I2 [I3 [I4 [I5 [I6 I7]]]]]].
  assert (Fl : forall b, ~ In (t, b) l) by (intros b H; apply Ft, in_map_iff; exists (t, b); auto).
  destruct a as [|r [|? ?]]; [| |cbn in La; lia]; cbn [comp_step].
  - unfold cellspec. cbn [p_heap p_res p_task]. rewrite app_length. cbn [length].
    assert (Nt : glookup (p_task st) t = None).
    { destruct (glookup (p_task st) t) as [p|] eqn:E; [|reflexivity]. destruct (I3 _ _ E) as [_ [H _]]. destruct (Fl _ H). }
    split; [|split; [|split; [|split; [|split; [|split]]]]].
    + intros s p L. destruct (I1 _ _ L) as [B M]. split; [lia|]. intros u. rewrite app_nth1 by exact B. rewrite M, in_app_iff. cbn [In].
      split; [auto|intros [H|[H|[]]]; [exact H|discriminate]].
    + intros s u H. apply in_app_iff in H. destruct H as [H|[H|[]]]; [apply (I2 s u H)|discriminate].
    + intros u p. rewrite glookup_cons. destruct (Nat.eqb_spec t u) as [->|D]; intros L.
      * injection L as <-. split; [lia|]. split; [apply in_app_iff; right; left; reflexivity|]. intros w. rewrite app_nth2, Nat.sub_diag by lia. cbn. intuition congruence.
      * destruct (I3 _ _ L) as [B [M1 M2]]. split; [lia|]. split; [apply in_app_iff; left; exact M1|]. rewrite app_nth1 by exact B. exact M2.
    + intros u H. rewrite glookup_cons. destruct (Nat.eqb_spec t u) as [->|D]; [eauto|]. apply in_app_iff in H. destruct H as [H|[H|[]]]; [apply I4; exact H|congruence].
    + intros s u p L. rewrite glookup_cons. destruct (Nat.eqb_spec t u) as [->|D]; [|apply I5 with s; exact L].
      intros E. injection E as <-. destruct (I1 _ _ L). lia.
    + exact I6.
    + intros u w p. rewrite !glookup_cons. destruct (Nat.eqb_spec t u) as [Q1|D]; destruct (Nat.eqb_spec t w) as [E|D']; intros L1 L2.
      * congruence.
      * injection L1 as <-. destruct (I3 _ _ L2). lia.
      * injection L2 as <-. destruct (I3 _ _ L1). lia.
      * apply (I7 u w p); assumption.
  - cbn [merge_loop]. unfold touch. destruct (glookup (p_res st) r) as [p|] eqn:L0.
    + destruct (I1 _ _ L0) as [B0 M0]. unfold cellspec. cbn [p_heap p_res p_task]. rewrite set_cell_length.
      split; [|split; [|split; [|split; [|split; [|split]]]]].
      * intros s q L. destruct (I1 _ _ L) as [B M]. split; [exact B|]. intros u. rewrite nth_set_cell by exact B0.
        rewrite in_app_iff. destruct (Nat.eqb_spec q p) as [->|D].
        -- assert (s = r) by (apply (I6 s r p); assumption). subst s. rewrite set_union_In, M0. cbn [In]. intuition congruence.
        -- rewrite M. cbn [In]. split; [auto|]. intros [H|[H|[]]]; [exact H|]. injection H as <- <-. congruence.
      * intros s u H. apply in_app_iff in H. destruct H as [H|[H|[]]]; [apply (I2 s u H)|]. injection H as <- <-. eauto.
      * intros u q L. destruct (I3 _ _ L) as [B [M1 M2]]. split; [exact B|]. split; [apply in_app_iff; left; exact M1|].
        rewrite nth_set_cell by exact B0. destruct (Nat.eqb_spec q p) as [->|D]; [destruct (I5 r u p L0 L)|exact M2].
      * intros u H. apply in_app_iff in H. destruct H as [H|[H|[]]]; [apply I4; exact H|discriminate].
      * exact I5.
      * exact I6.
      * exact I7.
    + unfold cellspec. cbn [p_heap p_res p_task]. rewrite set_cell_length, app_length. cbn [length].
      assert (B0 : length (p_heap st) < length (p_heap st ++ [[]])) by (rewrite app_length; cbn; lia).
      split; [|split; [|split; [|split; [|split; [|split]]]]].
      * intros s q. rewrite glookup_cons. destruct (Nat.eqb_spec r s) as [->|D]; intros L.
        -- injection L as <-. split; [lia|]. intros u. rewrite nth_set_cell by exact B0. rewrite Nat.eqb_refl, set_union_In, app_nth2, Nat.sub_diag by lia.
           cbn [nth In]. rewrite in_app_iff. cbn [In]. split; [intros [[]|[->|[]]]; auto|]. intros [H|[H|[]]]; [|injection H as ->; auto].
           destruct (I2 _ _ H). congruence.
        -- destruct (I1 _ _ L) as [B M]. split; [lia|]. intros u. rewrite nth_set_cell by exact B0. destruct (Nat.eqb_spec q (length (p_heap st))); [lia|].
           rewrite app_nth1 by exact B. rewrite M, in_app_iff. cbn [In]. split; [auto|]. intros [H|[H|[]]]; [exact H|congruence].
      * intros s u H. rewrite glookup_cons. destruct (Nat.eqb_spec r s) as [->|D]; [eauto|]. apply in_app_iff in H.
        destruct H as [H|[H|[]]]; [apply (I2 s u H)|congruence].
      * intros u q L. destruct (I3 _ _ L) as [B [M1 M2]]. split; [lia|]. split; [apply in_app_iff; left; exact M1|].
        rewrite nth_set_cell by exact B0. destruct (Nat.eqb_spec q (length (p_heap st))); [lia|]. rewrite app_nth1 by exact B. exact M2.
      * intros u H. apply in_app_iff in H. destruct H as [H|[H|[]]]; [apply I4; exact H|discriminate].
      * intros s u p. rewrite glookup_cons. destruct (Nat.eqb_spec r s) as [->|D]; [|apply I5]. intros L L'. injection L as <-. destruct (I3 _ _ L'). lia.
      * intros s s' p. rewrite !glookup_cons. destruct (Nat.eqb_spec r s) as [Q1|D]; destruct (Nat.eqb_spec r s') as [E|D']; intros L L'.
        -- congruence.
        -- injection L as <-. destruct (I1 _ _ L'). lia.
        -- injection L' as <-. destruct (I1 _ _ L). lia.
        -- apply (I6 s s' p); assumption.
      * exact I7.
Qed.

Lemma cellspec_fold l2 : forall l1 st, (forall t a, In (t, a) l2 -> length a <= 1) -> NoDup (map fst (l1 ++ l2)) -> cellspec st l1 -> cellspec (fold_left comp_step l2 st) (l1 ++ l2).
Proof.
  induction l2 as [|[t a] r IH]; intros l1 st S N I; [rewrite app_nil_r; exact I|]. cbn [fold_left].
  replace (l1 ++ (t, a) :: r) with ((l1 ++ [(t, a)]) ++ r) in * by (rewrite <- app_assoc; reflexivity).
  apply IH; [intros; apply (S t0); right; assumption|exact N|]. apply cellspec_step; [apply (S t); left; reflexivity| |exact I].
  rewrite !map_app in N. cbn [map fst] in N. intros H. rewrite <- app_assoc in N. apply NoDup_remove_2 in N. apply N. apply in_app_iff. left. exact H.
Qed.

(** a state in which every task is assigned to its class *)
Lemma assign_all p members : forall bt, (forall t, In t members -> glookup bt t = None) -> NoDup members ->
  forall t, glookup (assign_set bt p members) t = if existsb (Nat.eqb t) members then Some p else glookup bt t.
Proof.
  induction members as [|x r IH]; intros bt F N t; [reflexivity|]. cbn [assign_set existsb]. rewrite (F x (or_introl eq_refl)).
  inversion N as [|? ? N1 N2]; subst. rewrite IH; [|intros y Hy; rewrite glookup_cons|exact N2].
  - rewrite glookup_cons, (Nat.eqb_sym t x). destruct (existsb (Nat.eqb t) r); [rewrite orb_true_r; reflexivity|]. rewrite orb_false_r. reflexivity.
  - destruct (Nat.eqb_spec x y) as [->|D]; [contradiction|]. apply F. right. exact Hy.
Qed.

Lemma set_union_nodup a b : NoDup a -> NoDup b -> NoDup (set_union a b).
Proof.
  intros A B. unfold set_union. induction A as [|x l Hx A IH].
  - cbn [app]. apply NoDup_filter. exact B.
  - cbn [app]. constructor.
    + rewrite in_app_iff, filter_In. intros [H|[H1 H2]]; [contradiction|]. apply negb_true_iff in H2. cbn [existsb] in H2. rewrite Nat.eqb_refl in H2. discriminate.
    + assert (G : forall l2 : list nat, NoDup l2 -> NoDup (l ++ filter (fun x0 => negb (existsb (Nat.eqb x0) l)) l2) -> NoDup (l ++ filter (fun x0 => negb (existsb (Nat.eqb x0) (x :: l))) l2)).
      { clear. intros l2 N2 H. replace (filter (fun x0 => negb (existsb (Nat.eqb x0) (x :: l))) l2)
          with (filter (fun x0 => negb (Nat.eqb x0 x)) (filter (fun x0 => negb (existsb (Nat.eqb x0) l)) l2)).
        2: { clear. induction l2 as [|y l2 IH]; [reflexivity|]. cbn [filter existsb]. destruct (existsb (Nat.eqb y) l); cbn [negb filter orb].
             - rewrite orb_true_r. exact IH.
             - rewrite orb_false_r. destruct (Nat.eqb y x); cbn [negb]; rewrite IH; reflexivity. }
        remember (filter (fun x0 => negb (existsb (Nat.eqb x0) l)) l2) as m. clear Heqm N2 l2.
        induction l as [|y l IHl]; cbn [app] in *; [apply NoDup_filter; exact H|]. inversion H as [|? ? H1 H2]; subst. constructor; [|apply IHl; exact H2].
        intros I. apply H1. apply in_app_iff in I. apply in_app_iff. destruct I as [I|I]; [left; exact I|right]. apply filter_In in I. apply I. }
      apply G; assumption.
Qed.

Definition heap_nodup (st : pstate) : Prop := forall p, NoDup (nth p (p_heap st) []).

Lemma heap_nodup_step st t a : length a <= 1 -> heap_nodup st -> heap_nodup (comp_step st (t, a)).
Proof.
  intros La H. assert (S : forall c p, NoDup c -> NoDup (nth p (p_heap st ++ [c]) [])).
  { intros c p Hc. destruct (Nat.ltb_spec p (length (p_heap st))) as [L|L]; [rewrite app_nth1 by exact L; apply H|]. rewrite app_nth2 by exact L.
    destruct (p - length (p_heap st)) as [|[|k]]; [exact Hc|constructor|constructor]. }
  assert (T1 : NoDup [t]) by (constructor; [intros []|constructor]).
  destruct a as [|r [|? ?]]; [| |cbn in La; lia]; cbn [comp_step].
  - intros p. cbn [p_heap]. apply S. exact T1.
  - cbn [merge_loop]. unfold touch. assert (G : forall h p v q, (forall x, NoDup (nth x h [])) -> NoDup v -> NoDup (nth q (set_cell h p v) [])).
    { clear. induction h as [|x h IH]; intros p v q Hh Hv; [destruct p; apply Hh|]. destruct p as [|p]; cbn [set_cell].
      - destruct q as [|q]; [exact Hv|apply (Hh (S q))].
      - destruct q as [|q]; [apply (Hh 0)|]. cbn [nth]. apply IH; [intros y; apply (Hh (S y))|exact Hv]. }
    destruct (glookup (p_res st) r) as [p|]; intros q; cbn [p_heap]; apply G; try exact H.
    + apply set_union_nodup; [apply H|exact T1].
    + intros x. apply S. constructor.
    + apply set_union_nodup; [apply S; constructor|exact T1].
Qed.

Lemma heap_nodup_fold l : (forall t a, In (t, a) l -> length a <= 1) -> forall st, heap_nodup st -> heap_nodup (fold_left comp_step l st).
Proof.
  induction l as [|[t a] r IH]; intros S st H; [exact H|]. cbn [fold_left]. apply IH; [intros; apply (S t0); right; assumption|].
  apply heap_nodup_step; [apply (S t); left; reflexivity|exact H].
Qed.

Variable iter : list nat -> list nat.
Hypothesis iter_perm : forall l, Permutation (iter l) l.

Definition assign_fold (st : pstate) (ps : list nat) (bt : list (nat * nat)) : list (nat * nat) :=
  fold_left (fun bt p => assign_set bt p (iter (nth p (p_heap st) []))) ps bt.

Lemma existsb_perm l l' x : Permutation l l' -> existsb (Nat.eqb x) l = existsb (Nat.eqb x) l'.
Proof.
  intros P. destruct (existsb (Nat.eqb x) l') eqn:E.
  - apply existsb_In. apply existsb_In in E. apply (Permutation_in _ (Permutation_sym P) E).
  - destruct (existsb (Nat.eqb x) l) eqn:F; [|reflexivity]. apply existsb_In in F. apply (Permutation_in _ P) in F. apply existsb_In in F. congruence.
Qed.

Lemma assign_fold_spec st : cellspec st tasks -> heap_nodup st -> forall keys bt,
  NoDup keys ->
  (forall r t, In r keys -> In (t, [r]) tasks -> glookup bt t = None) ->
  forall t, glookup (assign_fold st (concat (map (fun k => match glookup (p_res st) k with Some p => [p] | None => [] end) keys)) bt) t =
    match glookup bt t with
    | Some p => Some p
    | None => match find (fun r => existsb (Nat.eqb t) (match glookup (p_res st) r with Some p => nth p (p_heap st) [] | None => [] end)) keys with
              | Some r => glookup (p_res st) r
              | None => None
              end
    end.
Proof.
  intros CS HN. destruct CS as [I1 [I2 [I3 [I4 [I5 [I6 I7]]]]]].
  induction keys as [|k keys IH]; intros bt N F t; [cbn; destruct (glookup bt t); reflexivity|].
  inversion N as [|? ? N1 N2]; subst. cbn [map concat find].
  destruct (glookup (p_res st) k) as [p|] eqn:L.
  - cbn [app]. unfold assign_fold. cbn [fold_left]. fold (assign_fold st (concat (map (fun k => match glookup (p_res st) k with Some p => [p] | None => [] end) keys)) (assign_set bt p (iter (nth p (p_heap st) [])))).
    destruct (I1 _ _ L) as [B M].
    assert (A : forall u, glookup (assign_set bt p (iter (nth p (p_heap st) []))) u = if existsb (Nat.eqb u) (nth p (p_heap st) []) then Some p else glookup bt u).
    { intros u. rewrite assign_all.
      - rewrite (existsb_perm _ _ u (iter_perm _)). reflexivity.
      - intros w Hw. apply (Permutation_in _ (iter_perm _)) in Hw. apply M in Hw. apply (F k); [left; reflexivity|exact Hw].
      - apply (Permutation_NoDup (Permutation_sym (iter_perm _))). apply HN. }
    rewrite IH; [|exact N2|].
    + rewrite A. destruct (existsb (Nat.eqb t) (nth p (p_heap st) [])) eqn:E.
      * apply existsb_In in E. apply M in E. rewrite (F k t (or_introl eq_refl) E). symmetry. exact L.
      * destruct (glookup bt t); reflexivity.
    + intros r u Hr Hu. rewrite A. destruct (existsb (Nat.eqb u) (nth p (p_heap st) [])) eqn:E.
      * apply existsb_In in E. apply M in E. pose proof (name_unique _ _ _ E Hu) as Q. injection Q as ->. contradiction.
      * apply (F r); [right; exact Hr|exact Hu].
  - cbn [app existsb]. apply IH; [exact N2|]. intros r u Hr. apply F. right. exact Hr.
Qed.

Lemma dep_single t u : dependent tasks t u -> t = u \/ exists r, In (t, [r]) tasks /\ In (u, [r]) tasks.
Proof.
  intros D. induction D as [t u [a [b [r [A [B [Ra Rb]]]]]]|t|t u D IH|t u v D1 IH1 D2 IH2].
  - right. pose proof (single _ _ A) as La. pose proof (single _ _ B) as Lb.
    destruct a as [|x [|? ?]]; [destruct Ra| |cbn in La; lia]. destruct b as [|y [|? ?]]; [destruct Rb| |cbn in Lb; lia].
    destruct Ra as [<-|[]]. destruct Rb as [<-|[]]. exists y. auto.
  - left; reflexivity.
  - destruct IH as [->|[r [A B]]]; [left; reflexivity|right; exists r; auto].
  - destruct IH1 as [->|[r [A B]]]; [exact IH2|]. destruct IH2 as [<-|[s [A' B']]]; [right; exists r; auto|].
    right. pose proof (name_unique _ _ _ B A') as Q. injection Q as ->. exists s. auto.
Qed.

Theorem single_partition order torder : NoDup order ->
  (forall r t a, In (t, a) tasks -> In r a -> In r order) ->
  (forall t a, In (t, a) tasks -> In t torder) ->
  partitions tasks (find_independent_tasksubsets iter order torder tasks).
Proof.
  intros No Ho Ht.
  assert (C : cellspec (fold_left comp_step tasks (PS [] [] [])) tasks).
  { apply (cellspec_fold tasks [] (PS [] [] [])); [exact single|exact names|]. unfold cellspec. cbn [p_res p_task p_heap].
    split; [intros r p H; discriminate|]. split; [intros r t []|]. split; [intros t p H; discriminate|]. split; [intros t []|].
    split; [intros r t p H; discriminate|]. split; [intros r s p H; discriminate|intros t u p H; discriminate]. }
  assert (HN : heap_nodup (fold_left comp_step tasks (PS [] [] []))).
  { apply heap_nodup_fold; [exact single|]. intros p. destruct p; constructor. }
  unfold find_independent_tasksubsets, find_connected_components.
  set (st := fold_left comp_step tasks (PS [] [] [])) in *. cbv zeta.
  match goal with |- partitions _ (subsets_loop ?s _ _) => set (st2 := s) end.
  pose proof C as [I1 [I2 [I3 [I4 [I5 [I6 I7]]]]]].
  assert (L : forall t, glookup (p_task st2) t =
    match glookup (p_task st) t with
    | Some p => Some p
    | None => match find (fun r => existsb (Nat.eqb t) (match glookup (p_res st) r with Some p => nth p (p_heap st) [] | None => [] end)) order with
              | Some r => glookup (p_res st) r | None => None end
    end).
  { intros t. apply (assign_fold_spec st C HN order (p_task st) No). intros r u Hr Hu.
    destruct (glookup (p_task st) u) as [q|] eqn:E; [|reflexivity]. destruct (I3 _ _ E) as [_ [M _]].
    pose proof (name_unique _ _ _ M Hu) as Q. discriminate Q. }
  assert (Lr : forall t r, In (t, [r]) tasks -> exists p, glookup (p_res st) r = Some p /\ glookup (p_task st2) t = Some p).
  { intros t r H. destruct (I2 _ _ H) as [p E]. exists p. split; [exact E|]. rewrite L.
    destruct (glookup (p_task st) t) as [q|] eqn:Eq.
    { destruct (I3 _ _ Eq) as [_ [M _]]. pose proof (name_unique _ _ _ M H) as Q. discriminate Q. }
    destruct (find _ order) as [s|] eqn:Fd.
    - apply find_some in Fd. destruct Fd as [_ Fd]. apply existsb_In in Fd. destruct (glookup (p_res st) s) as [q|] eqn:Es; [|destruct Fd].
      destruct (I1 _ _ Es) as [_ M]. apply M in Fd. pose proof (name_unique _ _ _ Fd H) as Q. injection Q as ->. congruence.
    - exfalso. pose proof (find_none _ _ Fd r (Ho r t [r] H (or_introl eq_refl))) as Fr. cbv beta in Fr.
      rewrite E in Fr. destruct (I1 _ _ E) as [_ M]. apply M in H. apply existsb_In in H. congruence. }
  assert (Ln : forall t, In (t, []) tasks -> exists p, glookup (p_task st) t = Some p /\ glookup (p_task st2) t = Some p).
  { intros t H. destruct (I4 _ H) as [p E]. exists p. split; [exact E|]. rewrite L, E. reflexivity. }
  assert (Li : forall t p, glookup (p_task st2) t = Some p -> (In (t, []) tasks /\ glookup (p_task st) t = Some p) \/ (exists r, In (t, [r]) tasks /\ glookup (p_res st) r = Some p)).
  { intros t p E. rewrite L in E. destruct (glookup (p_task st) t) as [q|] eqn:Eq.
    - injection E as ->. left. destruct (I3 _ _ Eq) as [_ [M _]]. auto.
    - destruct (find _ order) as [s|] eqn:Fd; [|discriminate]. right. exists s. split; [|exact E]. apply find_some in Fd. destruct Fd as [_ Fd].
      rewrite E in Fd. apply existsb_In in Fd. apply (I1 _ _ E). exact Fd. }
  assert (Cl : forall t p, glookup (p_task st2) t = Some p -> In t (nth p (p_heap st) []) /\ (forall u, In u (nth p (p_heap st) []) -> glookup (p_task st2) u = Some p) /\ (forall u, In u (nth p (p_heap st) []) <-> dependent tasks t u)).
  { intros t p E. destruct (Li t p E) as [[H E']|[r [H E']]].
    - destruct (I3 _ _ E') as [_ [_ M]]. split; [apply M; reflexivity|]. split; [intros u Hu; apply M in Hu; subst; exact E|].
      intros u. rewrite M. split; [intros ->; apply rst_refl|]. intros D. destruct (dep_single _ _ D) as [->|[r [A _]]]; [reflexivity|].
      pose proof (name_unique _ _ _ A H) as Q. discriminate Q.
    - destruct (I1 _ _ E') as [_ M]. split; [apply M; exact H|]. split.
      + intros u Hu. apply M in Hu. destruct (Lr u r Hu) as [q [Q1 Q2]]. congruence.
      + intros u. rewrite M. split.
        * intros Hu. apply rst_step. exists [r], [r], r. cbn. auto.
        * intros D. destruct (dep_single _ _ D) as [<-|[s [A B]]]; [exact H|]. pose proof (name_unique _ _ _ A H) as Q. injection Q as ->. exact B. }
  destruct (subsets_loop_spec st2 torder (fun t p E => conj (proj1 (Cl t p E)) (proj1 (proj2 (Cl t p E)))) [] (fun t p h => match h with end)) as [A [B D]].
  split; [|split; [exact D|]].
  - intros t a H. assert (Ex : exists p, glookup (p_task st2) t = Some p).
    { pose proof (single _ _ H) as La. destruct a as [|r [|? ?]]; [destruct (Ln t H) as [p [_ E]]; eauto|destruct (Lr t r H) as [p [_ E]]; eauto|cbn in La; lia]. }
    destruct Ex as [p E]. destruct (B t p (Ht t a H) E) as [[]|Hs]. exists (nth p (p_heap st) []). split; [exact Hs|exact (proj1 (Cl t p E))].
  - intros s t u Hs Hts. destruct (A s Hs) as [_ [t' [p [E ->]]]]. destruct (Cl t' p E) as [_ [C2 _]]. apply (Cl t p (C2 t Hts)).
Qed.
End Single.
