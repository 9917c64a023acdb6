(** Proofs about nested critical sections and group locks. *)
From Coq Require Import ZArith List Bool Arith Relations Lia Sorted Permutation.
From Verif Require Import ModelResources SpecResources.
Import ListNotations.
Local Open Scope nat_scope.

Section CsecInd.
  Variable P : csec -> Prop.
  Hypothesis H : forall r l n, (forall x, In x n -> P x) -> P (CS r l n).
  Fixpoint csec_ind' (c : csec) : P c :=
    match c with
    | CS r l n => H r l n ((fix go (n : list csec) : forall x, In x n -> P x :=
        match n with
        | [] => fun x f => match f with end
        | y :: t => fun x h => match h with or_introl e => eq_ind y P (csec_ind' y) x e | or_intror h' => go t x h' end
        end) n)
    end.
End CsecInd.

(** ** events *)
Lemma with_outer_eq o r l n : with_outer o (CS r l n) = (r, o) :: concat (map (with_outer (Some r)) n).
Proof. reflexivity. Qed.

Lemma in_with_outer : forall c o r out, In (r, out) (with_outer o c) <->
  (r = cs_res c /\ out = o) \/ (exists y x, within y c /\ child x y /\ r = cs_res x /\ out = Some (cs_res y)).
Proof.
  induction c as [r0 l n IH] using csec_ind'. intros o r out. rewrite with_outer_eq. split.
  - intros [E|H]. { injection E as <- <-. left; auto. }
    right. apply in_concat in H. destruct H as [ls [H1 H2]]. apply in_map_iff in H1.
    destruct H1 as [x [<- Hx]]. apply (IH x Hx) in H2. destruct H2 as [[-> ->]|[y [z [A [B [C D]]]]]].
    + exists (CS r0 l n), x. split; [constructor|]. split; [constructor; exact Hx|auto].
    + exists y, z. split; [|auto]. apply within_step with x; [exact A|constructor; exact Hx].
  - intros [[-> ->]|[y [x [A [B [-> ->]]]]]]; [left; reflexivity|]. right.
    apply in_concat. inversion A as [|? y' ? A1 A2]; subst.
    + inversion B as [? ? ? ? B1]; subst. exists (with_outer (Some r0) x). split; [apply in_map; exact B1|].
      apply (IH x B1). left. auto.
    + inversion A2 as [? ? ? ? B1]; subst. exists (with_outer (Some r0) y'). split; [apply in_map; exact B1|].
      apply (IH y' B1). right. exists y, x. auto.
Qed.

Definition events (tasks : list (list csec)) : list (nat * option nat) :=
  concat (map (fun f => concat (map (with_outer None) f)) tasks).

Lemma in_events tasks r out : In (r, out) (events tasks) <->
  exists f o, In f tasks /\ In o f /\ In (r, out) (with_outer None o).
Proof.
  unfold events. rewrite in_concat. split.
  - intros [ls [H1 H2]]. apply in_map_iff in H1. destruct H1 as [f [<- Hf]].
    apply in_concat in H2. destruct H2 as [l2 [H3 H4]]. apply in_map_iff in H3. destruct H3 as [o [<- Ho]].
    exists f, o. auto.
  - intros [f [o [Hf [Ho H]]]]. exists (concat (map (with_outer None) f)). split.
    + apply in_map_iff. exists f. auto.
    + apply in_concat. exists (with_outer None o). split; [apply in_map; exact Ho|exact H].
Qed.

Lemma within_trans_child x y c : within y c -> child x y -> within x c.
Proof.
  intros H. induction H as [c|z y c H IH Hc]; intros C.
  - apply within_step with x; [constructor|exact C].
  - apply within_step with y; [apply IH; exact C|exact Hc].
Qed.

Lemma within_last x c : within x c -> x = c \/ exists y, within y c /\ child x y.
Proof.
  intros H. induction H as [c|z y c H IH Hc]; [left; reflexivity|]. right.
  destruct IH as [->|[w [W1 W2]]].
  - exists c. split; [constructor|exact Hc].
  - exists w. split; [apply within_step with y; assumption|exact W2].
Qed.

Lemma requested_events tasks r : requested tasks r <-> exists o, In (r, o) (events tasks).
Proof.
  split.
  - intros [f [c [Hf [[o [Ho W]] <-]]]]. destruct (within_last _ _ W) as [->|[y [W1 W2]]].
    + exists None. apply in_events. exists f, o. split; [exact Hf|]. split; [exact Ho|]. apply in_with_outer. left; auto.
    + exists (Some (cs_res y)). apply in_events. exists f, o. split; [exact Hf|]. split; [exact Ho|].
      apply in_with_outer. right. exists y, c. auto.
  - intros [out H]. apply in_events in H. destruct H as [f [o [Hf [Ho H]]]]. apply in_with_outer in H.
    destruct H as [[-> _]|[y [x [A [B [-> _]]]]]].
    + exists f, o. split; [exact Hf|]. split; [|reflexivity]. exists o. split; [exact Ho|constructor].
    + exists f, x. split; [exact Hf|]. split; [|reflexivity]. exists o. split; [exact Ho|].
      apply within_trans_child with y; assumption.
Qed.

Lemma inside_events tasks o r : requested_inside tasks o r <-> In (r, Some o) (events tasks).
Proof.
  split.
  - intros [f [c [x [Hf [[t [Ht W]] [C [<- <-]]]]]]]. apply in_events. exists f, t. split; [exact Hf|]. split; [exact Ht|].
    apply in_with_outer. right. exists c, x. auto.
  - intros H. apply in_events in H. destruct H as [f [t [Hf [Ht H]]]]. apply in_with_outer in H.
    destruct H as [[_ E]|[y [x [A [B [-> E]]]]]]; [discriminate|]. injection E as ->.
    exists f, y, x. split; [exact Hf|]. split; [exists t; auto|auto].
Qed.

(** the outer section of every event has been seen before *)
Fixpoint ordered (seen : nat -> Prop) (evs : list (nat * option nat)) : Prop :=
  match evs with
  | [] => True
  | (r, o) :: t => (match o with None => True | Some o => seen o end) /\ ordered (fun x => x = r \/ seen x) t
  end.

Lemma ordered_mono evs : forall (s s' : nat -> Prop), (forall x, s x -> s' x) -> ordered s evs -> ordered s' evs.
Proof.
  induction evs as [|[r o] t IH]; intros s s' M H; [exact I|]. destruct H as [H1 H2]. split.
  - destruct o; [apply M; exact H1|exact I].
  - apply IH with (fun x => x = r \/ s x); [|exact H2]. intros x [->|Hx]; auto.
Qed.

Lemma ordered_app a : forall s b, ordered s a -> ordered s b -> ordered s (a ++ b).
Proof.
  induction a as [|[r o] t IH]; intros s b Ha Hb; [exact Hb|]. destruct Ha as [H1 H2]. cbn [app ordered]. split; [exact H1|].
  apply IH; [exact H2|]. apply ordered_mono with s; [auto|exact Hb].
Qed.

Lemma ordered_concat s ls : (forall l, In l ls -> ordered s l) -> ordered s (concat ls).
Proof.
  induction ls as [|l t IH]; intros H; [exact I|]. cbn [concat]. apply ordered_app; [apply H; left; reflexivity|].
  apply IH. intros l' Hl'. apply H. right. exact Hl'.
Qed.

Lemma with_outer_ordered : forall c (s : nat -> Prop) o, match o with None => True | Some o => s o end -> ordered s (with_outer o c).
Proof.
  induction c as [r l n IH] using csec_ind'. intros s o Ho. rewrite with_outer_eq. cbn [ordered]. split; [exact Ho|].
  apply ordered_concat. intros ls H. apply in_map_iff in H. destruct H as [x [<- Hx]]. apply IH; [exact Hx|]. left. reflexivity.
Qed.

Lemma events_ordered tasks s : ordered s (events tasks).
Proof.
  apply ordered_concat. intros ls H. apply in_map_iff in H. destruct H as [f [<- _]].
  apply ordered_concat. intros l2 H. apply in_map_iff in H. destruct H as [o [<- _]].
  apply with_outer_ordered. exact I.
Qed.

(** ** set and heap helpers *)
Lemma existsb_In x l : existsb (Nat.eqb x) l = true <-> In x l.
Proof. rewrite existsb_exists. split; [intros [y [H E]]; apply Nat.eqb_eq in E; subst; exact H|intros H; exists x; split; [exact H|apply Nat.eqb_refl]]. Qed.

Lemma set_union_In x a b : In x (set_union a b) <-> In x a \/ In x b.
Proof.
  unfold set_union. rewrite in_app_iff, filter_In, negb_true_iff. split; [tauto|].
  intros [H|H]; [auto|]. destruct (existsb (Nat.eqb x) a) eqn:E; [left; apply existsb_In; exact E|auto].
Qed.

Lemma set_eqb_spec a b : set_eqb a b = true <-> (forall x, In x a <-> In x b).
Proof.
  unfold set_eqb. rewrite andb_true_iff, !forallb_forall. split.
  - intros [H1 H2] x. split; intros H; [apply existsb_In, H1, H|apply existsb_In, H2, H].
  - intros H. split; intros x Hx; apply existsb_In, H, Hx.
Qed.

Lemma set_cell_length h : forall k v, length (set_cell h k v) = length h.
Proof. induction h as [|x t IH]; intros [|k] v; cbn; [reflexivity..|rewrite IH; reflexivity]. Qed.

Lemma nth_set_cell h : forall k v q, k < length h -> nth q (set_cell h k v) [] = if Nat.eqb q k then v else nth q h [].
Proof.
  induction h as [|x t IH]; intros [|k] v q L; cbn [length] in L; [lia|lia| |].
  - destruct q; reflexivity.
  - destruct q as [|q]; [reflexivity|]. cbn [set_cell nth Nat.eqb]. apply IH. lia.
Qed.

Lemma glookup_cons x p env s : glookup ((x, p) :: env) s = if Nat.eqb x s then Some p else glookup env s.
Proof. unfold glookup. cbn [find fst]. destruct (Nat.eqb x s); reflexivity. Qed.

Lemma glookup_bind g p s : forall env, glookup (fold_left (fun env x => (x, p) :: env) g env) s =
  if existsb (Nat.eqb s) g then Some p else glookup env s.
Proof.
  induction g as [|x t IH]; intros env; [reflexivity|]. cbn [fold_left existsb]. rewrite IH, glookup_cons, (Nat.eqb_sym s x).
  destruct (Nat.eqb x s), (existsb (Nat.eqb s) t); reflexivity.
Qed.

(** ** connectivity *)
Definition conn (E : list (nat * nat)) : nat -> nat -> Prop := clos_refl_sym_trans nat (fun a b => In (a, b) E).

Lemma conn_refl E x : conn E x x. Proof. apply rst_refl. Qed.
Lemma conn_sym E x y : conn E x y -> conn E y x. Proof. apply rst_sym. Qed.
Lemma conn_trans E x y z : conn E x y -> conn E y z -> conn E x z. Proof. apply rst_trans. Qed.

Lemma conn_mono E E' : (forall e, In e E -> In e E') -> forall x y, conn E x y -> conn E' x y.
Proof.
  intros M x y H. induction H; [apply rst_step; auto|apply rst_refl|apply rst_sym; auto|eapply rst_trans; eauto].
Qed.

Lemma conn_add E o r x y : conn ((o, r) :: E) x y <->
  conn E x y \/ (conn E x o /\ conn E r y) \/ (conn E x r /\ conn E o y).
Proof.
  split.
  - intros H. induction H as [x y [H|H]|x|x y H IH|x y z H1 IH1 H2 IH2].
    + injection H as <- <-. right; left. split; apply conn_refl.
    + left. apply rst_step. exact H.
    + left. apply conn_refl.
    + destruct IH as [A|[[A B]|[A B]]]; [left|right; right|right; left]; auto using conn_sym.
    + destruct IH1 as [A|[[A B]|[A B]]]; destruct IH2 as [C|[[C D]|[C D]]].
      * left. exact (conn_trans _ _ _ _ A C).
      * right; left. split; [exact (conn_trans _ _ _ _ A C)|exact D].
      * right; right. split; [exact (conn_trans _ _ _ _ A C)|exact D].
      * right; left. split; [exact A|exact (conn_trans _ _ _ _ B C)].
      * right; left. split; assumption.
      * left. exact (conn_trans _ _ _ _ A D).
      * right; right. split; [exact A|exact (conn_trans _ _ _ _ B C)].
      * left. exact (conn_trans _ _ _ _ A D).
      * right; right. split; assumption.
  - assert (M : forall a b, conn E a b -> conn ((o, r) :: E) a b) by (apply conn_mono; intros; right; assumption).
    assert (S : conn ((o, r) :: E) o r) by (apply rst_step; left; reflexivity).
    intros [A|[[A B]|[A B]]]; [apply M; exact A| |].
    + exact (conn_trans _ _ _ _ (M _ _ A) (conn_trans _ _ _ _ S (M _ _ B))).
    + exact (conn_trans _ _ _ _ (M _ _ A) (conn_trans _ _ _ _ (conn_sym _ _ _ S) (M _ _ B))).
Qed.

Lemma conn_fresh E r : (forall a b, In (a, b) E -> a <> r /\ b <> r) -> forall x y, conn E x y -> (x = r <-> y = r).
Proof.
  intros F x y H. induction H as [x y H|x|x y H IH|x y z H1 IH1 H2 IH2]; [destruct (F _ _ H); tauto|tauto|tauto|tauto].
Qed.

Lemma conn_noop E o r : conn E o r -> forall x y, conn ((o, r) :: E) x y <-> conn E x y.
Proof.
  intros C x y. rewrite conn_add. split; [|auto].
  intros [A|[[A B]|[A B]]]; [exact A| |].
  - exact (conn_trans _ _ _ _ A (conn_trans _ _ _ _ C B)).
  - exact (conn_trans _ _ _ _ A (conn_trans _ _ _ _ (conn_sym _ _ _ C) B)).
Qed.

(** ** the invariant of identify_group_locks *)
Definition ginv (st : gstate) (V : list nat) (E : list (nat * nat)) : Prop :=
  (forall r, In r V <-> exists p, glookup (g_env st) r = Some p) /\
  (forall a b, In (a, b) E -> In a V /\ In b V) /\
  (forall r p, glookup (g_env st) r = Some p ->
     p < length (g_heap st) /\
     (forall s, In s (nth p (g_heap st) []) <-> conn E r s) /\
     (forall s, In s (nth p (g_heap st) []) -> glookup (g_env st) s = Some p)).

Lemma ginv_new st V E r : ginv st V E -> glookup (g_env st) r = None ->
  ginv (GS (g_heap st ++ [[r]]) ((r, length (g_heap st)) :: g_env st)) (r :: V) E.
Proof.
  intros [I1 [I2 I3]] N.
  assert (Fr : ~ In r V) by (intros H; apply I1 in H; destruct H as [p H]; congruence).
  assert (Fe : forall a b, In (a, b) E -> a <> r /\ b <> r) by (intros a b H; destruct (I2 _ _ H); split; intros ->; contradiction).
  unfold ginv. cbn [g_heap g_env]. split; [|split].
  - intros s. rewrite glookup_cons. destruct (Nat.eqb_spec r s) as [->|D].
    + split; [eauto|left; reflexivity].
    + rewrite <- I1. split; [intros [->|H]; [contradiction|exact H]|right; assumption].
  - intros a b H. destruct (I2 _ _ H). split; right; assumption.
  - intros s p. rewrite glookup_cons. destruct (Nat.eqb_spec r s) as [->|D]; intros L.
    + injection L as <-. rewrite app_length. cbn [length]. split; [lia|].
      rewrite app_nth2 by lia. rewrite Nat.sub_diag. cbn [nth]. split.
      * intros x. split; [intros [<-|[]]; apply conn_refl|]. intros C. left.
        symmetry. apply (conn_fresh E s Fe _ _ C). reflexivity.
      * intros x [<-|[]]. rewrite glookup_cons, Nat.eqb_refl. reflexivity.
    + destruct (I3 _ _ L) as [L1 [L2 L3]]. rewrite app_length. cbn [length]. split; [lia|].
      rewrite app_nth1 by lia. split; [exact L2|]. intros x Hx. rewrite glookup_cons.
      destruct (Nat.eqb_spec r x) as [->|]; [|apply L3; exact Hx].
      exfalso. apply L3 in Hx. congruence.
Qed.

Lemma ginv_merge st V E o r p1 p2 : ginv st V E ->
  glookup (g_env st) o = Some p1 -> glookup (g_env st) r = Some p2 ->
  set_eqb (nth p1 (g_heap st) []) (nth p2 (g_heap st) []) = false ->
  ginv (GS (set_cell (g_heap st) p1 (set_union (nth p1 (g_heap st) []) (nth p2 (g_heap st) [])))
           (fold_left (fun env x => (x, p1) :: env) (nth p2 (g_heap st) []) (g_env st))) V ((o, r) :: E).
Proof.
  intros [I1 [I2 I3]] L1 L2 N.
  destruct (I3 _ _ L1) as [B1 [M1 R1]]. destruct (I3 _ _ L2) as [B2 [M2 R2]].
  assert (D : p1 <> p2).
  { intros ->. assert (T : set_eqb (nth p2 (g_heap st) []) (nth p2 (g_heap st) []) = true)
      by (apply set_eqb_spec; tauto). congruence. }
  unfold ginv. cbn [g_heap g_env]. split; [|split].
  - intros s. rewrite glookup_bind. destruct (existsb (Nat.eqb s) (nth p2 (g_heap st) [])) eqn:Ex; [|apply I1].
    apply existsb_In in Ex. split; [eauto|]. intros _. apply I1. exists p2. apply R2. exact Ex.
  - intros a b [H|H]; [|apply I2; exact H]. injection H as <- <-. split; apply I1; eauto.
  - intros s p. rewrite glookup_bind, set_cell_length, nth_set_cell by exact B1.
    destruct (existsb (Nat.eqb s) (nth p2 (g_heap st) [])) eqn:Ex; intros L.
    + injection L as <-. apply existsb_In in Ex. rewrite Nat.eqb_refl. split; [exact B1|]. split.
      * intros x. rewrite set_union_In, M1, M2, conn_add. apply M2 in Ex. split.
        -- intros [A|A]; [right; right; split; [apply conn_sym; exact Ex|exact A]|].
           left. eauto using conn_trans, conn_sym.
        -- intros [A|[[A B]|[A B]]]; [right; eauto using conn_trans| |left; exact B]. right; exact B.
      * intros x Hx. rewrite set_union_In in Hx. rewrite glookup_bind.
        destruct (existsb (Nat.eqb x) (nth p2 (g_heap st) [])) eqn:Ey; [reflexivity|].
        destruct Hx as [Hx|Hx]; [apply R1; exact Hx|]. apply existsb_In in Hx. congruence.
    + destruct (I3 _ _ L) as [B [M R]]. destruct (Nat.eqb_spec p p1) as [->|D1].
      * split; [exact B1|]. assert (Cs : conn E s o) by (apply conn_sym, M1, M, conn_refl). split.
        -- intros x. rewrite set_union_In, M1, M2, conn_add. split.
           ++ intros [A|A]; [left; eauto using conn_trans|right; left; split; assumption].
           ++ intros [A|[[A A']|[A A']]]; [left; eauto using conn_trans, conn_sym|right; exact A'|left; exact A'].
        -- intros x Hx. rewrite set_union_In in Hx. rewrite glookup_bind.
           destruct (existsb (Nat.eqb x) (nth p2 (g_heap st) [])) eqn:Ey; [reflexivity|].
           destruct Hx as [Hx|Hx]; [apply R1; exact Hx|]. apply existsb_In in Hx. congruence.
      * split; [exact B|]. assert (No : ~ conn E s o).
        { intros C. apply M in C. apply R in C. congruence. }
        assert (Nr : ~ conn E s r).
        { intros C. apply M in C. apply R in C. rewrite C in L2. injection L2 as ->.
          assert (In s (nth p2 (g_heap st) [])) by (apply M, conn_refl).
          apply existsb_In in H. congruence. }
        split.
        -- intros x. rewrite M, conn_add. tauto.
        -- intros x Hx. rewrite glookup_bind. destruct (existsb (Nat.eqb x) (nth p2 (g_heap st) [])) eqn:Ey; [|apply R; exact Hx].
           exfalso. apply existsb_In in Ey. apply M2 in Ey. apply M in Hx. apply Nr. eauto using conn_trans, conn_sym.
Qed.

Definition edge_of (ev : nat * option nat) : list (nat * nat) := match snd ev with None => [] | Some o => [(o, fst ev)] end.

Lemma ginv_ext st V E V' E' : (forall r, In r V <-> In r V') -> (forall e, In e E <-> In e E') -> ginv st V E -> ginv st V' E'.
Proof.
  intros HV HE [I1 [I2 I3]]. split; [|split].
  - intros r. rewrite <- HV. apply I1.
  - intros a b H. apply HE in H. destruct (I2 _ _ H). rewrite <- !HV. auto.
  - intros r p L. destruct (I3 _ _ L) as [A [B C]]. split; [exact A|]. split; [|exact C].
    intros s. rewrite B. split; apply conn_mono; apply HE.
Qed.

Lemma group_step_inv st V E r o : ginv st V E -> match o with None => True | Some o => In o V end ->
  exists st', group_step st (r, o) = Some st' /\ ginv st' (r :: V) (edge_of (r, o) ++ E).
Proof.
  intros I Ho. unfold group_step.
  set (st1 := match glookup (g_env st) r with None => _ | Some _ => st end).
  assert (I' : ginv st1 (r :: V) E).
  { unfold st1. destruct (glookup (g_env st) r) as [p|] eqn:L; [|apply ginv_new; assumption].
    apply ginv_ext with V E; [|tauto|exact I]. intros s. split; [right; assumption|].
    intros [<-|H]; [|exact H]. apply I. eauto. }
  clearbody st1. destruct o as [o|]; [|exists st1; split; [reflexivity|exact I']].
  destruct I' as [I1 I2] eqn:EI. clear EI.
  destruct (proj1 (I1 o) (or_intror Ho)) as [p1 L1]. destruct (proj1 (I1 r) (or_introl eq_refl)) as [p2 L2].
  rewrite L1, L2. destruct (set_eqb _ _) eqn:Q.
  - exists st1. split; [reflexivity|]. cbn [edge_of fst snd app].
    destruct I2 as [I2 I3]. destruct (I3 _ _ L1) as [B1 [M1 R1]]. destruct (I3 _ _ L2) as [B2 [M2 R2]].
    assert (C : conn E o r). { apply M1. apply (proj1 (set_eqb_spec _ _) Q). apply M2. apply conn_refl. }
    split; [exact I1|]. split.
    + intros a b [H|H]; [|apply I2; exact H]. injection H as <- <-. split; [right; exact Ho|left; reflexivity].
    + intros s p L. destruct (I3 _ _ L) as [A [B D]]. split; [exact A|]. split; [|exact D].
      intros x. rewrite B. symmetry. apply conn_noop. exact C.
  - eexists. split; [reflexivity|]. cbn [edge_of fst snd app]. apply ginv_merge; [split; assumption|assumption..].
Qed.

Lemma group_loop_inv evs : forall st V E, ginv st V E -> ordered (fun x => In x V) evs ->
  exists st', group_loop st evs = Some st' /\ ginv st' (map fst evs ++ V) (concat (map edge_of evs) ++ E).
Proof.
  induction evs as [|[r o] t IH]; intros st V E I O; [exists st; split; [reflexivity|exact I]|].
  destruct O as [O1 O2]. destruct (group_step_inv st V E r o I O1) as [st1 [S1 I1]].
  cbn [group_loop]. rewrite S1. destruct (IH st1 _ _ I1) as [st2 [S2 I2]].
  { apply ordered_mono with (fun x => x = r \/ In x V); [|exact O2]. intros x [->|H]; [left; reflexivity|right; exact H]. }
  exists st2. split; [exact S2|]. apply ginv_ext with (map fst t ++ r :: V) (concat (map edge_of t) ++ edge_of (r, o) ++ E); [| |exact I2].
  - intros x. cbn [map fst app]. rewrite in_app_iff. cbn [In]. rewrite in_app_iff. tauto.
  - intros e. cbn [map concat]. rewrite !in_app_iff. tauto.
Qed.

Lemma in_edges evs o r : In (o, r) (concat (map edge_of evs)) <-> In (r, Some o) evs.
Proof.
  induction evs as [|[a b] t IH]; [reflexivity|]. cbn [map concat]. rewrite in_app_iff, IH.
  unfold edge_of at 1. cbn [fst snd]. destruct b as [b|]; cbn [In]; split; intros H.
  - destruct H as [[H|[]]|H]; [injection H as -> ->; left; reflexivity|right; exact H].
  - destruct H as [H|H]; [injection H as -> ->; left; left; reflexivity|right; exact H].
  - destruct H as [[]|H]; right; exact H.
  - destruct H as [H|H]; [discriminate|right; exact H].
Qed.

Lemma same_group_conn tasks x y : same_group tasks x y <-> conn (concat (map edge_of (events tasks))) x y.
Proof.
  split; intros H; (induction H as [x y H|x|x y H IH|x y z H1 IH1 H2 IH2];
    [apply rst_step|apply rst_refl|apply rst_sym; exact IH|apply rst_trans with y; assumption]).
  - apply in_edges, inside_events. exact H.
  - apply inside_events, in_edges. exact H.
Qed.

Lemma identify_spec tasks : exists st, identify_group_locks tasks = Some st /\
  (forall r, requested tasks r <-> exists p, glookup (g_env st) r = Some p) /\
  (forall r p, glookup (g_env st) r = Some p -> forall s, In s (nth p (g_heap st) []) <-> same_group tasks r s) /\
  (forall r s p q, glookup (g_env st) r = Some p -> glookup (g_env st) s = Some q -> (p = q <-> same_group tasks r s)).
Proof.
  destruct (group_loop_inv (events tasks) (GS [] []) [] []) as [st [S [I1 [I2 I3]]]].
  - split; [|split].
    + intros r. split; [intros []|intros [p H]; discriminate].
    + intros a b [].
    + intros r p H. discriminate.
  - apply events_ordered.
  - exists st. split; [exact S|]. rewrite !app_nil_r in *.
    assert (Q : forall r p, glookup (g_env st) r = Some p -> forall s, In s (nth p (g_heap st) []) <-> same_group tasks r s).
    { intros r p L s. rewrite same_group_conn. apply I3. exact L. }
    split; [|split; [exact Q|]].
    + intros r. rewrite requested_events, <- I1, in_map_iff. split.
      * intros [o H]. exists (r, o). auto.
      * intros [[a o] [<- H]]. exists o. exact H.
    + intros r s p q L1 L2. rewrite <- (Q r p L1). split.
      * intros ->. apply (Q s q L2). apply rst_refl.
      * intros H. destruct (I3 _ _ L1) as [_ [_ R]]. apply R in H. congruence.
Qed.
