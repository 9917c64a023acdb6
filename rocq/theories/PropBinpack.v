(** Property theorems C20-C22: bin packing (schedcat/mapping/binpack.py). *)
From Coq Require Import QArith List Bool Arith Lia Permutation.
From Verif Require Import Base ModelBinpack SpecBinpack ProofBinpack.
Import ListNotations.
Open Scope Q_scope.

Definition within {A} (w : A -> Q) (cap : Q) (sets : list (list A)) : Prop := Forall (fun b => load w b <= cap) sets.

(** The heuristics that pack into a fixed number of bins, any misfit callback. *)
Inductive fixed_heuristic {A} (w : A -> Q) (cap : Q) (raises : A -> bool) : (list A -> nat -> packing) -> Prop :=
| h_first : fixed_heuristic w cap raises (first_fit w cap raises)
| h_worst : fixed_heuristic w cap raises (worst_fit w cap raises)
| h_almost : fixed_heuristic w cap raises (almost_worst_fit w cap raises)
| h_best : fixed_heuristic w cap raises (best_fit w cap raises).


Lemma fixed_facts : forall A (w : A -> Q) cap raises h, fixed_heuristic w cap raises h ->
  forall items bins sets rep, (0 < bins)%nat -> h items bins = Sets sets rep ->
  Permutation (concat sets ++ rep) items /\ length sets = bins /\ (0 <= cap -> within w cap sets).
Proof.
  intros A w cap raises h Hh items bins sets rep Hb E. destruct Hh.
  - eapply follows_facts; [apply first_fits|]. rewrite <- E. apply first_follows.
  - eapply follows_facts; [apply worst_fits|]. rewrite <- E. apply worst_follows.
  - eapply follows_facts; [apply almost_fits|]. rewrite <- E. apply almost_follows.
  - eapply follows_facts; [apply best_fits|]. rewrite <- E. apply best_follows. assumption.
Qed.

Lemma fixed_raise : forall A (w : A -> Q) cap raises h, fixed_heuristic w cap raises h ->
  forall items bins, (0 < bins)%nat ->
  match h items bins with
  | Sets _ rep => forall x, In x rep -> raises x = false
  | DidNotFit x => In x items /\ raises x = true
  | Crash => False
  end.
Proof.
  intros A w cap raises h Hh items bins Hb.
  assert (K : forall r, follows w raises r items bins (h items bins) -> match h items bins with
    | Sets _ rep => forall x, In x rep -> raises x = false
    | DidNotFit x => In x items /\ raises x = true
    | Crash => False
    end).
  { intros r H. destruct (h items bins) as [s rep|x|]; cbn in H; [tauto| |assumption].
    destruct H as [p [q [? [? [-> [_ [_ H]]]]]]]. split; [apply in_or_app; right; left; reflexivity|assumption]. }
  destruct Hh; eapply K; [apply first_follows|apply worst_follows|apply almost_follows|apply best_follows; assumption].
Qed.

Lemma decreasing_facts : forall A (w : A -> Q) (items : list A),
  Permutation (sort_key_desc w items) items /\ decreasing_order w (sort_key_desc w items) /\
  forall v, filter (fun x => Qeq_bool (w x) v) (sort_key_desc w items) = filter (fun x => Qeq_bool (w x) v) items.
Proof. intros. split; [apply sort_key_perm|]. split; [apply sort_key_sorted|]. intros. apply sort_key_stable. Qed.

Lemma decreasing_fixed_facts : forall A (w : A -> Q) cap raises h, fixed_heuristic w cap raises h ->
  forall items bins sets rep, (0 < bins)%nat -> decreasing w h items bins = Sets sets rep ->
  Permutation (concat sets ++ rep) items /\ length sets = bins /\ (0 <= cap -> within w cap sets).
Proof.
  intros A w cap raises h Hh items bins sets rep Hb E. unfold decreasing in E.
  destruct (fixed_facts _ w cap raises h Hh _ _ _ _ Hb E) as [H1 H2]. split; [|assumption].
  etransitivity; [exact H1|]. apply sort_key_perm.
Qed.

(** ** C20: capacity *)

(** Fixed number of bins, plain and decreasing. *)
Theorem C20_capacity : forall A (w : A -> Q) cap raises h, 0 <= cap -> fixed_heuristic w cap raises h ->
  forall items bins sets rep, (0 < bins)%nat ->
  h items bins = Sets sets rep \/ decreasing w h items bins = Sets sets rep -> within w cap sets /\ length sets = bins.
Proof.
  exact (fun A w cap raises h H0 Hh items bins sets rep Hb E =>
    match E with
    | or_introl E => let F := fixed_facts A w cap raises h Hh items bins sets rep Hb E in conj (proj2 (proj2 F) H0) (proj1 (proj2 F))
    | or_intror E => let F := decreasing_fixed_facts A w cap raises h Hh items bins sets rep Hb E in conj (proj2 (proj2 F) H0) (proj1 (proj2 F))
    end).
Qed.
Print Assumptions C20_capacity.

Lemma next_capacity : forall A (w : A -> Q) cap raises items bins sets rep, 0 <= cap -> (0 < bins)%nat ->
  next_fit w cap raises items bins = Sets sets rep -> within w cap sets /\ length sets = bins.
Proof.
  intros A w cap raises items bins sets rep H0 Hb E. pose proof (next_total w cap raises items bins Hb) as H. rewrite E in H.
  destruct rep as [|x [|y rep]]; [| |contradiction].
  - destruct H as [_ [H1 H2]]. split; [apply H2; assumption|assumption].
  - destruct H as [_ [H1 [H2 _]]]. split; [apply H2; assumption|assumption].
Qed.

Theorem C20_next_fit_capacity : forall A (w : A -> Q) cap raises items bins sets rep, 0 <= cap -> (0 < bins)%nat ->
  next_fit w cap raises items bins = Sets sets rep \/ decreasing w (next_fit w cap raises) items bins = Sets sets rep ->
  within w cap sets /\ length sets = bins.
Proof.
  exact (fun A w cap raises items bins sets rep H0 Hb E =>
    match E with
    | or_introl E => next_capacity A w cap raises items bins sets rep H0 Hb E
    | or_intror E => next_capacity A w cap raises (sort_key_desc w items) bins sets rep H0 Hb E
    end).
Qed.
Print Assumptions C20_next_fit_capacity.

Lemma grow_capacity : forall A (w : A -> Q) cap raises items, 0 <= cap -> exists out,
  best_fit w cap raises items 0 = Sets out [] /\ Permutation (concat out) items /\
  Forall (fun b => load w b <= cap \/ exists x, b = [x] /\ cap < w x) out.
Proof.
  intros A w cap raises items H0. unfold best_fit.
  destruct (grow_run w cap items [[]] [0]) as [out [E1 E2]]; [constructor; [reflexivity|constructor]|].
  exists out. split; [exact E1|]. destruct (grow_facts w cap _ _ _ E2) as [H1 [_ H2]]. split; [exact H1|].
  apply H2. constructor; [left; exact H0|constructor].
Qed.

(** best_fit with bins created on demand: the only bins above the capacity hold
    a single item that is itself above the capacity. *)
Theorem C20_best_fit_on_demand : forall A (w : A -> Q) cap raises items, 0 <= cap -> exists out,
  best_fit w cap raises items 0 = Sets out [] /\ Permutation (concat out) items /\
  Forall (fun b => load w b <= cap \/ exists x, b = [x] /\ cap < w x) out.
Proof. exact grow_capacity. Qed.
Print Assumptions C20_best_fit_on_demand.

Lemma oversize_witness : best_fit (fun q : Q => q) 1 (fun _ => true) [3#2] 0 = Sets [[]; [3#2]] [].
Proof. reflexivity. Qed.

Lemma oversize_beyond : ~ within (fun q : Q => q) 1 [[]; [3#2]].
Proof. intro H. inv H. inv H3. cbn in H1. unfold Qle in H1. cbn in H1. lia. Qed.

(** Hence the capacity is not respected when bins are created on demand. *)
Theorem C20_on_demand_capacity_refuted : exists items out, best_fit (fun q : Q => q) 1 (fun _ => true) items 0 = Sets out [] /\
  ~ within (fun q => q) 1 out.
Proof.
  exact (ex_intro _ [3#2] (ex_intro _ [[]; [3#2]] (conj oversize_witness oversize_beyond))).
Qed.
Print Assumptions C20_on_demand_capacity_refuted.

Example C20_example : fixed_heuristic (fun q : Q => q) 1 (fun _ => false) (worst_fit (fun q => q) 1 (fun _ => false)) /\
  worst_fit (fun q : Q => q) 1 (fun _ => false) [1#2; 1#3; 2#3; 1#2; 1#4] 2 = Sets [[1#2; 1#2]; [1#3; 2#3]] [1#4].
Proof. split; [constructor|reflexivity]. Qed.

(** ** C21: conservation *)

Theorem C21_conservation : forall A (w : A -> Q) cap raises h, fixed_heuristic w cap raises h ->
  forall items bins sets rep, (0 < bins)%nat ->
  h items bins = Sets sets rep \/ decreasing w h items bins = Sets sets rep -> Permutation (concat sets ++ rep) items.
Proof.
  exact (fun A w cap raises h Hh items bins sets rep Hb E =>
    match E with
    | or_introl E => proj1 (fixed_facts A w cap raises h Hh items bins sets rep Hb E)
    | or_intror E => proj1 (decreasing_fixed_facts A w cap raises h Hh items bins sets rep Hb E)
    end).
Qed.
Print Assumptions C21_conservation.

(** The exception comes from the callback only, about an item of the input; a
    run without exception reports only items the callback accepts.  There is no
    other failure. *)
Theorem C21_exceptions : forall A (w : A -> Q) cap raises h, fixed_heuristic w cap raises h ->
  forall items bins, (0 < bins)%nat ->
  match h items bins with
  | Sets _ rep => forall x, In x rep -> raises x = false
  | DidNotFit x => In x items /\ raises x = true
  | Crash => False
  end.
Proof. exact fixed_raise. Qed.
Print Assumptions C21_exceptions.

Lemma next_conservation : forall A (w : A -> Q) cap raises items bins, (0 < bins)%nat ->
  match next_fit w cap raises items bins with
  | Sets sets rep => exists rest, Permutation (concat sets ++ rep ++ rest) items /\
      items = concat sets ++ rep ++ rest /\ (rep = [] -> rest = []) /\ (length rep <= 1)%nat
  | DidNotFit x => In x items /\ raises x = true
  | Crash => False
  end.
Proof.
  intros A w cap raises items bins Hb. destruct (next_fit_run w cap raises items bins Hb) as [out [rep [H1 H2]]].
  apply next_run_facts in H1. destruct H1 as [[rest [E1 E2]] [E3 [E4 _]]]. cbn [concat app] in E1.
  destruct rep as [|x [|y rep]]; [| |cbn in E4; lia]; cbn in H2.
  - rewrite H2. exists rest. split; [rewrite E1; reflexivity|]. auto.
  - rewrite H2. destruct (raises x) eqn:Ex.
    + split; [rewrite E1; apply in_or_app; right; left; reflexivity|assumption].
    + exists rest. split; [rewrite E1; reflexivity|]. auto.
Qed.

(** next_fit keeps the order; what is missing is exactly the part of the input
    after the first (and only) reported item. *)
Theorem C21_next_fit_conservation : forall A (w : A -> Q) cap raises items bins, (0 < bins)%nat ->
  match next_fit w cap raises items bins with
  | Sets sets rep => exists rest, Permutation (concat sets ++ rep ++ rest) items /\
      items = concat sets ++ rep ++ rest /\ (rep = [] -> rest = []) /\ (length rep <= 1)%nat
  | DidNotFit x => In x items /\ raises x = true
  | Crash => False
  end.
Proof. exact next_conservation. Qed.
Print Assumptions C21_next_fit_conservation.

Lemma next_drops : next_fit (fun q : Q => q) 1 (fun _ => false) [2#3; 1#2; 1#3] 1 = Sets [[2#3]] [1#2] /\
  ~ Permutation (concat [[2#3]] ++ [1#2]) [2#3; 1#2; 1#3].
Proof. split; [reflexivity|]. intro H. apply Permutation_length in H. discriminate. Qed.

(** Full conservation fails for next_fit: an item that would still fit is
    neither packed nor reported. *)
Theorem C21_next_fit_conservation_refuted : exists items sets rep,
  next_fit (fun q : Q => q) 1 (fun _ => false) items 1 = Sets sets rep /\ ~ Permutation (concat sets ++ rep) items.
Proof. exact (ex_intro _ _ (ex_intro _ _ (ex_intro _ _ next_drops))). Qed.
Print Assumptions C21_next_fit_conservation_refuted.

(** any_fit packs everything exactly when one of its heuristics does; then it
    reports nothing.  Otherwise the callback hears about an item; if it returns
    it hears about a second one, and the bins are those of next_fit. *)
Theorem C21_any_fit : forall A (w : A -> Q) cap raises items bins, (0 < bins)%nat ->
  (exists h sets, In h (heuristics w cap) /\ h items bins = Sets sets [] /\
     any_fit w cap raises items bins = Sets sets [] /\
     Permutation (concat sets) items /\ length sets = bins /\ (0 <= cap -> within w cap sets)) \/
  ((forall h, In h (heuristics w cap) -> exists x, h items bins = DidNotFit x) /\
   ((exists x, any_fit w cap raises items bins = DidNotFit x /\ In x items /\ raises x = true) \/
    (exists sets x y, any_fit w cap raises items bins = Sets sets [x; y] /\ In x items /\
       length sets = bins /\ (0 <= cap -> within w cap sets) /\ exists rest, items = concat sets ++ y :: rest))).
Proof. exact (fun A w cap => any_fit_spec w cap). Qed.
Print Assumptions C21_any_fit.

Example C21_any_example :
  any_fit (fun q : Q => q) 1 (fun _ => true) [1#2; 2#3; 1#3; 1#2] 2 = Sets [[1#2; 1#2]; [2#3; 1#3]] [] /\
  next_fit (fun q : Q => q) 1 (fun _ => true) [1#2; 2#3; 1#3; 1#2] 2 = DidNotFit (1#2).
Proof. split; reflexivity. Qed.

(** ** C22: selection rules *)

(** [follows w raises r items bins res]: the call is a run of rule [r] over the
    items from empty bins, either to the end or up to an item that the rule
    reports and for which the callback raises. *)
Lemma rules : forall A (w : A -> Q) cap raises items bins, (0 < bins)%nat ->
  follows w raises (first_rule cap) items bins (first_fit w cap raises items bins) /\
  follows w raises (worst_rule cap) items bins (worst_fit w cap raises items bins) /\
  follows w raises (almost_worst_rule cap) items bins (almost_worst_fit w cap raises items bins) /\
  follows w raises (best_rule cap) items bins (best_fit w cap raises items bins).
Proof.
  intros. split; [apply first_follows|]. split; [apply worst_follows|]. split; [apply almost_follows|]. apply best_follows. assumption.
Qed.

Theorem C22_selection_rules : forall A (w : A -> Q) cap raises items bins, (0 < bins)%nat ->
  follows w raises (first_rule cap) items bins (first_fit w cap raises items bins) /\
  follows w raises (worst_rule cap) items bins (worst_fit w cap raises items bins) /\
  follows w raises (almost_worst_rule cap) items bins (almost_worst_fit w cap raises items bins) /\
  follows w raises (best_rule cap) items bins (best_fit w cap raises items bins).
Proof. exact rules. Qed.
Print Assumptions C22_selection_rules.

Lemma decreasing_rules : forall A (w : A -> Q) cap raises items bins, (0 < bins)%nat -> exists sorted,
  Permutation sorted items /\ decreasing_order w sorted /\
  (forall v, filter (fun x => Qeq_bool (w x) v) sorted = filter (fun x => Qeq_bool (w x) v) items) /\
  follows w raises (first_rule cap) sorted bins (decreasing w (first_fit w cap raises) items bins) /\
  follows w raises (worst_rule cap) sorted bins (decreasing w (worst_fit w cap raises) items bins) /\
  follows w raises (almost_worst_rule cap) sorted bins (decreasing w (almost_worst_fit w cap raises) items bins) /\
  follows w raises (best_rule cap) sorted bins (decreasing w (best_fit w cap raises) items bins).
Proof.
  intros A w cap raises items bins Hb. exists (sort_key_desc w items).
  destruct (decreasing_facts A w items) as [H1 [H2 H3]]. split; [assumption|]. split; [assumption|]. split; [assumption|].
  apply rules. assumption.
Qed.

(** The decreasing variants: the same on the items in non-increasing weight,
    ties in the given order. *)
Theorem C22_decreasing : forall A (w : A -> Q) cap raises items bins, (0 < bins)%nat -> exists sorted,
  Permutation sorted items /\ decreasing_order w sorted /\
  (forall v, filter (fun x => Qeq_bool (w x) v) sorted = filter (fun x => Qeq_bool (w x) v) items) /\
  follows w raises (first_rule cap) sorted bins (decreasing w (first_fit w cap raises) items bins) /\
  follows w raises (worst_rule cap) sorted bins (decreasing w (worst_fit w cap raises) items bins) /\
  follows w raises (almost_worst_rule cap) sorted bins (decreasing w (almost_worst_fit w cap raises) items bins) /\
  follows w raises (best_rule cap) sorted bins (decreasing w (best_fit w cap raises) items bins).
Proof. exact decreasing_rules. Qed.
Print Assumptions C22_decreasing.

(** next_fit only looks at the current bin and never returns to an earlier one. *)
Theorem C22_next_fit : forall A (w : A -> Q) cap raises items bins, (0 < bins)%nat -> exists out rep,
  next_run w cap items [] [] (bins - 1) out rep /\
  match rep with
  | [] => next_fit w cap raises items bins = Sets out []
  | x :: _ => next_fit w cap raises items bins = if raises x then DidNotFit x else Sets out [x]
  end.
Proof. exact (fun A w cap raises => next_fit_run w cap raises). Qed.
Print Assumptions C22_next_fit.

Lemma on_demand : forall A (w : A -> Q) cap raises items, exists out,
  best_fit w cap raises items 0 = Sets out [] /\ grow w (best_rule cap) items [[]] out.
Proof. intros. apply grow_run. constructor; [reflexivity|constructor]. Qed.

(** best_fit on demand opens a bin only when the item fits into no open bin. *)
Theorem C22_best_fit_on_demand : forall A (w : A -> Q) cap raises items, exists out,
  best_fit w cap raises items 0 = Sets out [] /\ grow w (best_rule cap) items [[]] out.
Proof. exact on_demand. Qed.
Print Assumptions C22_best_fit_on_demand.

Example C22_example :
  first_fit (fun q : Q => q) 1 (fun _ => false) [1#4; 1#2; 2#3; 1#4; 1#3] 2 = Sets [[1#4; 1#2; 1#4]; [2#3; 1#3]] [] /\
  best_fit (fun q : Q => q) 1 (fun _ => false) [1#4; 1#2; 2#3; 1#4; 1#3] 2 = Sets [[1#4; 1#2; 1#4]; [2#3; 1#3]] [] /\
  worst_fit (fun q : Q => q) 1 (fun _ => false) [1#4; 1#2; 2#3; 1#4; 1#3] 2 = Sets [[1#4; 2#3]; [1#2; 1#4]] [1#3] /\
  almost_worst_fit (fun q : Q => q) 1 (fun _ => false) [1#4; 1#2; 2#3; 1#4; 1#3] 2 = Sets [[1#4; 1#2; 1#4]; [2#3; 1#3]] [].
Proof. repeat split; reflexivity. Qed.
