(** Property theorems C23: bins with transactions (schedcat/mapping/rollback.py). *)
From Coq Require Import QArith List Bool Arith Lia Lqa Permutation.
From Verif Require Import Base ModelBinpack SpecBinpack ProofBinpack ModelRollback SpecRollback ProofRollback.
Import ListNotations.
Open Scope Q_scope.

(** ** All-or-nothing.  [views] is what a user sees: capacity and items of each
    bin.  [ident] is any identity of items that resizing preserves. *)
Theorem C23_all_or_nothing : forall A K (size : A -> Q) ductile upd det (G : list (list A) -> bool) (ident : A -> K),
  (forall x l o, ident (upd x l o) = ident o) -> (forall x l, ident (det x l) = ident x) ->
  forall bs i x ok bs' x',
  try_to_add size ductile upd det G bs i x = (ok, bs', x') \/ try_to_add_no_commit size ductile upd det G bs i x = (ok, bs', x') ->
  ident x' = ident x /\
  if ok then added_at size ident i (ident x) (views bs) (views bs') /\ G (contents bs') = true
  else views bs' = views bs.
Proof.
  exact (fun A K size ductile upd det G ident Hu Hd bs i x ok bs' x' H =>
    match H with
    | or_introl H => try_to_add_spec size ductile upd det G ident Hu Hd bs i x ok bs' x' H
    | or_intror H => try_no_commit_spec size ductile upd det G ident Hu Hd bs i x ok bs' x' H
    end).
Qed.
Print Assumptions C23_all_or_nothing.

Lemma place_facts : forall A K (size : A -> Q) ductile upd det (G : list (list A) -> bool) (ident : A -> K),
  (forall x l o, ident (upd x l o) = ident o) -> (forall x l, ident (det x l) = ident x) ->
  forall h bs cur x ok bs' x' cur', try_to_place_item size ductile upd det G h bs cur x = (ok, bs', x', cur') ->
  if ok then (sequential h \/ ductile = false -> added size ident (ident x) (views bs) (views bs')) /\
             (sequential h \/ ductile = false /\ downward G -> G (contents bs') = true)
  else views bs' = views bs.
Proof.
  intros A K size ductile upd det G ident Hu Hd h bs cur x ok bs' x' cur' H.
  destruct (place_spec size ductile upd det G ident Hu Hd h bs cur x ok bs' x' cur' H) as [_ H']. destruct ok; [|assumption].
  destruct H' as [_ [H1 H2]]. split; [assumption|]. rewrite contents_views. assumption.
Qed.

(** The same for a whole placement by any of the heuristics: an item that is
    turned down leaves every bin as it was; an accepted item is added to one bin
    that stays within its capacity, and the global constraint was checked on
    exactly that state -- except that WorstFit and BestFit need items of fixed
    size and a constraint that survives taking items out (see the refutations). *)
Theorem C23_place_item : forall A K (size : A -> Q) ductile upd det (G : list (list A) -> bool) (ident : A -> K),
  (forall x l o, ident (upd x l o) = ident o) -> (forall x l, ident (det x l) = ident x) ->
  forall h bs cur x ok bs' x' cur', try_to_place_item size ductile upd det G h bs cur x = (ok, bs', x', cur') ->
  if ok then (sequential h \/ ductile = false -> added size ident (ident x) (views bs) (views bs')) /\
             (sequential h \/ ductile = false /\ downward G -> G (contents bs') = true)
  else views bs' = views bs.
Proof. exact place_facts. Qed.
Print Assumptions C23_place_item.

(** ** Histories: any sequence of binpack calls on one heuristic object *)
Fixpoint history {A} (size : A -> Q) ductile upd det G h mk (cs : list ((A -> bool) * list A)) (s : @state A) : @state A :=
  match cs with
  | [] => s
  | (raises, new) :: r => history size ductile upd det G h mk r (fst (fst (binpack size ductile upd det G h mk raises new s)))
  end.

Definition everything {A} (s : @state A) : list A := concat (contents (bins s)) ++ misfits s ++ remaining_items s.

Lemma history_facts : forall A K (size : A -> Q) ductile upd det (G : list (list A) -> bool) (ident : A -> K),
  (forall x l o, ident (upd x l o) = ident o) -> (forall x l, ident (det x l) = ident x) ->
  forall h mk, (forall b, mk = Some b -> items b = [] /\ 0 <= max_capacity b) ->
  forall cs s, let s' := history size ductile upd det G h mk cs s in
  Permutation (map ident (everything s')) (map ident (everything s ++ concat (map snd cs))) /\
  (sequential h \/ ductile = false -> in_capacity size (views (bins s)) -> in_capacity size (views (bins s'))) /\
  (sequential h \/ ductile = false /\ downward G -> (forall l, G l = true -> mk <> None -> G (l ++ [[]]) = true) ->
     G (contents (bins s)) = true -> G (contents (bins s')) = true).
Proof.
  intros A K size ductile upd det G ident Hu Hd h mk Hm. induction cs as [|[raises new] cs IH]; intros s; cbn [history].
  - cbn. rewrite app_nil_r. auto.
  - destruct (binpack size ductile upd det G h mk raises new s) as [[s1 n] raised] eqn:E. cbn [fst].
    unfold binpack in E. destruct (binpack_loop_spec size ductile upd det G ident Hu Hd h mk raises Hm _ _ _ _ _ _ _ _ E) as [H1 [_ [_ [_ [H2 H3]]]]].
    destruct (IH s1) as [I1 [I2 I3]]. split; [|split].
    + etransitivity; [exact I1|]. rewrite !map_app. cbn [map concat snd]. rewrite map_app. unfold everything.
      rewrite !contents_views. fold (all_items (views (bins s1))). fold (all_items (views (bins s))).
      etransitivity; [apply Permutation_app_tail; exact H1|]. rewrite !map_app, <- !app_assoc. reflexivity.
    + intros Hc HF. apply I2; [assumption|]. apply H2; assumption.
    + intros Hc Hl HG. apply I3; try assumption. apply H3; assumption.
Qed.

Theorem C23_history : forall A K (size : A -> Q) ductile upd det (G : list (list A) -> bool) (ident : A -> K),
  (forall x l o, ident (upd x l o) = ident o) -> (forall x l, ident (det x l) = ident x) ->
  forall h mk, (forall b, mk = Some b -> items b = [] /\ 0 <= max_capacity b) ->
  forall cs s, let s' := history size ductile upd det G h mk cs s in
  Permutation (map ident (everything s')) (map ident (everything s ++ concat (map snd cs))) /\
  (sequential h \/ ductile = false -> in_capacity size (views (bins s)) -> in_capacity size (views (bins s'))) /\
  (sequential h \/ ductile = false /\ downward G -> (forall l, G l = true -> mk <> None -> G (l ++ [[]]) = true) ->
     G (contents (bins s)) = true -> G (contents (bins s')) = true).
Proof. exact history_facts. Qed.
Print Assumptions C23_history.

Lemma count_facts : forall A (size : A -> Q) ductile upd det (G : list (list A) -> bool) h mk raises,
  (forall b, mk = Some b -> items b = [] /\ 0 <= max_capacity b) ->
  forall new s s' n raised, binpack size ductile upd det G h mk raises new s = (s', n, raised) ->
  (length (concat (contents (bins s'))) = length (concat (contents (bins s))) + n)%nat /\
  (raised = false -> remaining_items s' = []) /\ (mk = None -> length (bins s') = length (bins s)).
Proof.
  intros A size ductile upd det G h mk raises Hm new s s' n raised H. unfold binpack in H.
  destruct (binpack_loop_spec size ductile upd det G (fun _ => tt) (fun _ _ _ => eq_refl) (fun _ _ => eq_refl) h mk raises Hm _ _ _ _ _ _ _ _ H)
    as [_ [H1 [H2 [H3 _]]]]. rewrite !contents_views. fold (all_items (views (bins s'))). fold (all_items (views (bins s))).
  split; [lia|]. split; assumption.
Qed.

(** The returned count is the number of items packed; no item remains unless
    report_misfit raised. *)
Theorem C23_count : forall A (size : A -> Q) ductile upd det (G : list (list A) -> bool) h mk raises,
  (forall b, mk = Some b -> items b = [] /\ 0 <= max_capacity b) ->
  forall new s s' n raised, binpack size ductile upd det G h mk raises new s = (s', n, raised) ->
  (length (concat (contents (bins s'))) = length (concat (contents (bins s))) + n)%nat /\
  (raised = false -> remaining_items s' = []) /\ (mk = None -> length (bins s') = length (bins s)).
Proof. exact count_facts. Qed.
Print Assumptions C23_count.

Definition no_upd : Q -> list Q -> Q -> Q := fun _ _ o => o.
Definition no_det : Q -> list Q -> Q := fun x _ => x.
Definition two_bins : list (@bin Q) := [Bin 1 [] None; Bin 1 [] None].
Definition at_most (n : nat) : list (list Q) -> bool := fun l => Nat.leb (length (concat l)) n.

Example C23_history_example :
  let s := State two_bins 0 [] [] in
  contents (bins (history (fun q => q) false no_upd no_det (at_most 3) WorstFit None
     [((fun _ => false), [1#2; 2#3]); ((fun _ => true), [3#4; 1#4]); ((fun _ => false), [1#4])] s)) = [[1#2; 1#4]; [2#3]] /\
  downward (at_most 3).
Proof.
  split; [reflexivity|]. intros u v H Hu. unfold at_most in *. apply Nat.leb_le in Hu. apply Nat.leb_le.
  eapply Nat.le_trans; [|exact Hu]. clear Hu. induction H as [|b a v u [c E] H IH]; [reflexivity|]. cbn. subst a. rewrite !app_length in *. lia.
Qed.

(** ** The documented equivalences (docstrings of MaxSpareCapacity and MinSpareCapacity) *)
Lemma spare_classes : forall A (size : A -> Q) upd det mk raises new s,
  binpack size false upd det (fun _ => true) MaxSpareCapacity mk raises new s = binpack size false upd det (fun _ => true) WorstFit mk raises new s /\
  binpack size false upd det (fun _ => true) MinSpareCapacity mk raises new s = binpack size false upd det (fun _ => true) BestFit mk raises new s.
Proof.
  intros. unfold binpack. split; apply binpack_loop_ext; intros bs cur x; cbn [try_to_place_item].
  - rewrite max_spare_worst. reflexivity.
  - rewrite min_spare_best. reflexivity.
Qed.

(** Items of fixed size in plain bins, of any capacities and initial contents. *)
Theorem C23_spare_capacity_classes : forall A (size : A -> Q) upd det mk raises new s,
  binpack size false upd det (fun _ => true) MaxSpareCapacity mk raises new s = binpack size false upd det (fun _ => true) WorstFit mk raises new s /\
  binpack size false upd det (fun _ => true) MinSpareCapacity mk raises new s = binpack size false upd det (fun _ => true) BestFit mk raises new s.
Proof. exact spare_classes. Qed.
Print Assumptions C23_spare_capacity_classes.

(** With a global constraint they differ although items keep their size:
    WorstFit holds the item in the first bin while it tests the second. *)
Theorem C23_spare_capacity_classes_global_refuted : exists G s new, downward G /\
  contents (bins (fst (fst (binpack (fun q : Q => q) false no_upd no_det G MaxSpareCapacity None (fun _ => false) new s)))) <>
  contents (bins (fst (fst (binpack (fun q : Q => q) false no_upd no_det G WorstFit None (fun _ => false) new s)))).
Proof.
  exists (at_most 1), (State [Bin 1 [] None; Bin 2 [] None] 0 [] []), [1#2]. split; [|discriminate].
  intros u v H Hu. unfold at_most in *. apply Nat.leb_le in Hu. apply Nat.leb_le.
  eapply Nat.le_trans; [|exact Hu]. clear Hu. induction H as [|b a v u [c E] H IH]; [reflexivity|]. cbn. subst a. rewrite !app_length in *. lia.
Qed.
Print Assumptions C23_spare_capacity_classes_global_refuted.

Definition empty_bins {A} (n : nat) (cap : Q) : @state A := State (repeat (Bin cap [] None) n) 0 [] [].

Lemma contents_repeat : forall A n cap, contents (repeat (@Bin A cap [] None) n) = repeat [] n.
Proof. intros A n cap. unfold contents. induction n; cbn; congruence. Qed.

Lemma as_binpack : forall A (size : A -> Q) upd det cap n new h, (0 < n)%nat -> h <> NextFit ->
  let s := fst (fst (binpack size false upd det (fun _ => true) h None (fun _ => false) new (empty_bins n cap))) in
  match h with
  | FirstFit | NextFit => first_fit size cap (fun _ => false) new n
  | WorstFit | MaxSpareCapacity => worst_fit size cap (fun _ => false) new n
  | BestFit | MinSpareCapacity => best_fit size cap (fun _ => false) new n
  end = Sets (contents (bins s)) (misfits s).
Proof.
  intros A size upd det cap n new h Hn Hh s.
  assert (HR : run size (rule_of cap h) new (repeat [] n) (contents (bins s)) (misfits s)).
  { unfold s, binpack, empty_bins. cbn [remaining_items bins cur_index misfits app].
    destruct (binpack_loop size false upd det (fun _ => true) h None (fun _ => false) new (repeat (Bin cap [] None) n) 0 [] 0) as [[s1 c] raised] eqn:E.
    assert (Hcap : Forall (fun b => max_capacity b = cap) (repeat (@Bin A cap [] None) n))
      by (apply Forall_forall; intros b Hb; apply repeat_spec in Hb; subst b; reflexivity).
    cbn [fst]. destruct (binpack_loop_run size upd det cap h Hh _ _ _ _ _ _ _ _ Hcap E) as [rep [H1 H2]].
    cbn in H1. rewrite H1, <- contents_repeat with (cap := cap). assumption. }
  assert (HF : forall res, follows size (fun _ => false) (rule_of cap h) new n res -> res = Sets (contents (bins s)) (misfits s)).
  { intros [sets rep|x|] Hf; cbn in Hf; [| |contradiction].
    - destruct Hf as [Hf _]. destruct (run_functional size cap h _ _ _ _ Hf _ _ HR) as [-> ->]. reflexivity.
    - destruct Hf as [? [? [? [? [_ [_ [_ Hf]]]]]]]. discriminate. }
  destruct h; apply HF; cbn [rule_of]; first [apply first_follows|apply worst_follows|apply best_follows; assumption].
Qed.

(** On [n] empty bins of equal capacity the classes compute what the functions of
    binpack.py compute. *)
Theorem C23_same_as_binpack : forall A (size : A -> Q) upd det cap n new h, (0 < n)%nat -> h <> NextFit ->
  let s := fst (fst (binpack size false upd det (fun _ => true) h None (fun _ => false) new (empty_bins n cap))) in
  match h with
  | FirstFit | NextFit => first_fit size cap (fun _ => false) new n
  | WorstFit | MaxSpareCapacity => worst_fit size cap (fun _ => false) new n
  | BestFit | MinSpareCapacity => best_fit size cap (fun _ => false) new n
  end = Sets (contents (bins s)) (misfits s).
Proof. exact as_binpack. Qed.
Print Assumptions C23_same_as_binpack.

Example C23_same_example :
  contents (bins (fst (fst (binpack (fun q : Q => q) false no_upd no_det (fun _ => true) BestFit None (fun _ => false)
     [1#4; 1#2; 2#3; 1#4; 1#3] (empty_bins 2 1))))) = [[1#4; 1#2; 1#4]; [2#3; 1#3]].
Proof. reflexivity. Qed.

(** ** Refutations for FitBased *)

(** Items that change size: WorstFit can commit a bin beyond its capacity.  The
    item is [small] in a bin that already holds something and 1 otherwise; the
    last bin offered determines its size in all of them. *)
Definition item := (nat * Q)%type.
Definition item_size (x : item) : Q := snd x.
Definition item_upd (_ : item) (_ : list item) (o : item) : item := o.
Definition item_det (x : item) (l : list item) : item := (fst x, match l with [] => 1 | _ => 1#4 end).

Theorem C23_ductile_fit_based_capacity_refuted : exists bs x bs' x',
  in_capacity item_size (views bs) /\
  try_to_place_item item_size true item_upd item_det (fun _ => true) BestFit bs 0 x = (true, bs', x', O) /\
  ~ in_capacity item_size (views bs').
Proof.
  eexists [Bin 1 [(1, 1#2)%nat] None; Bin 2 [] None], (2%nat, 1#4), _, _.
  split; [repeat constructor; cbn; lra|]. split; [reflexivity|]. intro H. inv H. cbn in H2. lra.
Qed.
Print Assumptions C23_ductile_fit_based_capacity_refuted.

(** A global constraint that is not closed under removal: the committed state
    violates it. *)
Theorem C23_fit_based_global_refuted : exists G bs x bs' x',
  G (contents bs) = true /\
  try_to_place_item (fun q : Q => q) false no_upd no_det G WorstFit bs 0 x = (true, bs', x', O) /\ G (contents bs') = false.
Proof.
  exists (fun l => negb (Nat.eqb (length (nth 0 l [])) 0) || Nat.eqb (length (nth 1 l [])) 0), [Bin 1 [] None; Bin 2 [] None], (1#2).
  eexists _, _. repeat split; reflexivity.
Qed.
Print Assumptions C23_fit_based_global_refuted.
