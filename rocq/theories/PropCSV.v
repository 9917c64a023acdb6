(** C81: load_columns transposes a table. *)
From Coq Require Import List Bool Arith Lia Permutation.
From Verif Require Import Base ModelCSV.
Import ListNotations.

Section CSV.
Context {S K B : Type}.
Variable eqb : K -> K -> bool.
Hypothesis eqb_ok : forall a b, eqb a b = true <-> a = b.
Variable strip : S -> K.
Variable convert : S -> option B.

(** ** Specification *)
(** the last column with a label *)
Definition last_label (labels : list S) (k : K) (i : nat) : Prop :=
  (exists x, nth_error labels i = Some x /\ strip x = k) /\
  forall j x, nth_error labels j = Some x -> strip x = k -> j <= i.

(** the converted cells of column i, of all rows but the empty ones, in order *)
Definition column_of (data : list (list S)) (i : nat) (c : list B) : Prop :=
  Forall2 (fun row b => exists x, nth_error row i = Some x /\ convert x = Some b)
    (filter (fun row => match row with [] => false | _ => true end) data) c.

(** ** Proof *)
Lemma put_get : forall V k (v : V) d k', dict_get eqb k' (dict_put eqb k v d) = if eqb k' k then Some v else dict_get eqb k' d.
Proof.
  induction d as [|(a, b) d IH]; intros k'; cbn [dict_put dict_get].
  - reflexivity.
  - destruct (eqb k a) eqn:E; cbn [dict_get].
    + apply eqb_ok in E. subst a. destruct (eqb k' k); reflexivity.
    + rewrite IH. destruct (eqb k' a) eqn:E1; [|reflexivity]. destruct (eqb k' k) eqn:E2; [|reflexivity].
      apply eqb_ok in E1. apply eqb_ok in E2. rewrite (proj2 (eqb_ok k a)) in E by congruence. discriminate.
Qed.

Lemma put_keys : forall V k (v : V) d, NoDup (map fst d) -> NoDup (map fst (dict_put eqb k v d)) /\ (forall x, In x (map fst (dict_put eqb k v d)) -> x = k \/ In x (map fst d)).
Proof.
  induction d as [|(a, b) d IH]; intros H; cbn [dict_put map fst].
  - split; [repeat constructor; intros []|intros x [<-|[]]; auto].
  - cbn in H. inversion H as [|? ? N H']; subst. destruct (eqb k a) eqn:E; cbn [map fst]; [split; [exact H|auto]|].
    destruct (IH H') as (I1 & I2). split.
    + constructor; [|exact I1]. intros X. destruct (I2 a X) as [->|X']; [|apply N, X']. rewrite (proj2 (eqb_ok k k) eq_refl) in E. discriminate.
    + intros x [<-|X]; [right; left; reflexivity|]. destruct (I2 x X); [auto|right; right; assumption].
Qed.

Lemma get_in : forall V d k (v : V), NoDup (map fst d) -> (In (k, v) d <-> dict_get eqb k d = Some v).
Proof.
  induction d as [|(a, b) d IH]; intros k v H; cbn [dict_get]; [split; [intros []|discriminate]|].
  cbn in H. inversion H as [|? ? N H']; subst. destruct (eqb k a) eqn:E.
  - apply eqb_ok in E. subst a. split; [intros [X|X]; [congruence|exfalso; apply N; change k with (fst (k, v)); apply in_map, X]|intros X; left; congruence].
  - rewrite <- IH by exact H'. split; [intros [X|X]; [injection X as -> ->; rewrite (proj2 (eqb_ok k k) eq_refl) in E; discriminate|exact X]|right; assumption].
Qed.

Lemma label_nodup : forall labels i d, NoDup (map fst d) -> NoDup (map fst (label_columns eqb strip i labels d)).
Proof. induction labels as [|x labels IH]; intros i d H; [exact H|]. cbn. apply IH, put_keys, H. Qed.

Lemma label_get : forall labels i d k j, dict_get eqb k (label_columns eqb strip i labels d) = Some j <->
  (exists p, j = i + p /\ last_label labels k p) \/ ((forall x, In x labels -> strip x <> k) /\ dict_get eqb k d = Some j).
Proof.
  induction labels as [|x labels IH]; intros i d k j; cbn [label_columns].
  - split; [intros H; right; split; [intros ? []|exact H]|intros [(p & _ & ((y & Y & _) & _))|(_ & H)]; [destruct p; discriminate|exact H]].
  - rewrite IH, put_get. split.
    + intros [(p & -> & (y & Y1 & Y2) & L)|(N & H)].
      * left. exists (1 + p). split; [lia|]. split; [exists y; split; assumption|]. intros [|q] z Hz Ez; [lia|]. cbn in Hz. specialize (L q z Hz Ez). lia.
      * destruct (eqb k (strip x)) eqn:E.
        -- apply eqb_ok in E. injection H as <-. left. exists 0. split; [lia|]. split; [exists x; split; [reflexivity|congruence]|].
           intros [|q] z Hz Ez; [lia|]. cbn in Hz. exfalso. apply (N z); [eapply nth_error_In; exact Hz|exact Ez].
        -- right. split; [|exact H]. intros z [<-|Hz]; [|apply N, Hz]. intros X. rewrite X, (proj2 (eqb_ok k k) eq_refl) in E. discriminate.
    + intros [([|p] & -> & (y & Y1 & Y2) & L)|(N & H)].
      * cbn in Y1. injection Y1 as <-. right. split.
        -- intros z Hz Ez. apply In_nth_error in Hz. destruct Hz as (q & Hq). specialize (L (Datatypes.S q) z Hq Ez). lia.
        -- rewrite (proj2 (eqb_ok k (strip x))) by congruence. f_equal. lia.
      * left. exists p. split; [lia|]. split; [exists y; split; assumption|]. intros q z Hz Ez. specialize (L (Datatypes.S q) z Hz Ez). lia.
      * right. split; [intros z Hz; apply N; right; exact Hz|]. destruct (eqb k (strip x)) eqn:E; [|exact H].
        apply eqb_ok in E. exfalso. apply (N x); [left; reflexivity|congruence].
Qed.

Lemma read_column_ok : forall i data c, read_column convert i data = inl c <-> column_of data i c.
Proof.
  unfold column_of. induction data as [|row data IH]; intros c; cbn [read_column filter].
  - split; [intros H; injection H as <-; constructor|intros H; inversion H; reflexivity].
  - destruct row as [|x row]; [apply IH|]. split.
    + intros H. destruct (nth_error (x :: row) i) as [y|] eqn:E; [|discriminate]. destruct (convert y) as [b|] eqn:Eb; [|discriminate].
      destruct (read_column convert i data) as [l|e]; [|discriminate]. injection H as <-. constructor; [exists y; auto|apply IH; reflexivity].
    + intros H. inversion H as [|? b ? c' (y & Y1 & Y2) F]; subst. rewrite Y1, Y2. rewrite (proj2 (IH c') F). reflexivity.
Qed.

Lemma list_put_nth : forall A (l : list A) i x j, i < length l -> nth_error (list_put i x l) j = if Nat.eqb j i then Some x else nth_error l j.
Proof.
  induction l as [|y l IH]; intros i x j H; [cbn in H; lia|]. destruct i as [|i]; destruct j as [|j]; cbn; try reflexivity.
  cbn in H. rewrite IH by lia. reflexivity.
Qed.

Lemma list_put_length : forall A (l : list A) i x, length (list_put i x l) = length l.
Proof. induction l as [|y l IH]; intros [|i] x; cbn; auto. Qed.

Lemma read_columns_ok : forall data ci keys bn bi c n x,
  NoDup (map fst keys) -> NoDup (map snd keys) -> (forall k i, In (k, i) keys -> i < length bi) ->
  read_columns eqb convert data ci keys bn bi = Loaded c n x ->
  c = ci /\ length x = length bi /\
  (forall k i, In (k, i) keys -> exists l, column_of data i l /\ dict_get eqb k n = Some l /\ nth_error x i = Some (Some l)) /\
  (forall k, ~ In k (map fst keys) -> dict_get eqb k n = dict_get eqb k bn) /\
  (forall i, ~ In i (map snd keys) -> nth_error x i = nth_error bi i).
Proof.
  induction keys as [|(k, i) keys IH]; intros bn bi c n x D1 D2 L H; cbn [read_columns] in H.
  - injection H as <- <- <-. repeat split; auto. intros ? ? [].
  - destruct (read_column convert i data) as [l|[|]] eqn:E; try discriminate. apply read_column_ok in E.
    cbn in D1, D2. inversion D1 as [|? ? N1 D1']; subst. inversion D2 as [|? ? N2 D2']; subst.
    assert (Li : i < length bi) by (apply (L k i); left; reflexivity).
    destruct (IH _ _ _ _ _ D1' D2' ltac:(intros k' i' X; rewrite list_put_length; apply (L k' i'); right; exact X) H) as (A1 & A2 & A3 & A4 & A5).
    split; [exact A1|]. split; [rewrite A2; apply list_put_length|]. split; [|split].
    + intros k' i' [X|X]; [|apply A3, X]. injection X as <- <-. exists l. split; [exact E|]. split.
      * rewrite A4 by exact N1. rewrite put_get, (proj2 (eqb_ok k k) eq_refl). reflexivity.
      * rewrite A5 by exact N2. rewrite list_put_nth, Nat.eqb_refl by exact Li. reflexivity.
    + intros k' X. cbn in X. rewrite A4 by tauto. rewrite put_get. destruct (eqb k' k) eqn:Ek; [apply eqb_ok in Ek; exfalso; apply X; left; congruence|reflexivity].
    + intros i' X. cbn in X. rewrite A5 by tauto. rewrite list_put_nth by exact Li. destruct (Nat.eqb i' i) eqn:Ei; [apply Nat.eqb_eq in Ei; exfalso; apply X; left; congruence|reflexivity].
Qed.

Lemma values_nodup : forall labels ks, Permutation ks (label_columns eqb strip 0 labels []) -> NoDup (map fst ks) /\ NoDup (map snd ks) /\ (forall k i, In (k, i) ks <-> last_label labels k i).
Proof.
  intros labels ks P. pose proof (label_nodup labels 0 [] (NoDup_nil _)) as D.
  assert (D1 : NoDup (map fst ks)) by (eapply Permutation_NoDup; [apply Permutation_map, Permutation_sym, P|exact D]).
  assert (I : forall k i, In (k, i) ks <-> last_label labels k i).
  { intros k i. transitivity (In (k, i) (label_columns eqb strip 0 labels [])).
    - split; intros X; [apply (Permutation_in _ P X)|apply (Permutation_in _ (Permutation_sym P) X)].
    - rewrite (get_in _ _ _ _ D), label_get. split; [intros [(p & -> & X)|(_ & X)]; [exact X|discriminate]|intros X; left; exists i; auto]. }
  split; [exact D1|]. split; [|exact I].
  assert (J : forall k k' i, In (k, i) ks -> In (k', i) ks -> k = k').
  { intros k k' i X Y. apply I in X. apply I in Y. destruct X as ((x & X1 & X2) & _). destruct Y as ((y & Y1 & Y2) & _). congruence. }
  clear I P D. induction ks as [|(k, i) ks IH]; [constructor|]. cbn in *. inversion D1 as [|? ? N D1']; subst. constructor.
  - intros X. apply in_map_iff in X. destruct X as ((k', i') & E & X). cbn in E. subst i'. pose proof (J k k' i (or_introl eq_refl) (or_intror X)) as <-.
    apply N. change k with (fst (k, i)). apply in_map, X.
  - apply IH; [exact D1'|]. intros a b j X Y. apply (J a b j); right; assumption.
Qed.

Lemma last_lt : forall labels k i, last_label labels k i -> i < length labels.
Proof. intros labels k i ((x & X & _) & _). apply nth_error_Some. congruence. Qed.

(** Whatever the order of iteration, if load_columns returns, every label is mapped to
    its last column, and by_name and by_idx hold exactly the cells of that column. *)
Theorem C81_columns : forall uniform order labels data ci bn bi,
  (forall l, Permutation (order l) l) ->
  load_columns eqb strip convert uniform order (labels :: data) = Loaded ci bn bi ->
  length bi = length labels /\ (forall k i, dict_get eqb k ci = Some i <-> last_label labels k i) /\
  (forall k i, last_label labels k i -> exists c, column_of data i c /\ dict_get eqb k bn = Some c /\ nth_error bi i = Some (Some c)) /\
  (forall k, dict_get eqb k bn <> None -> exists i, last_label labels k i) /\
  (uniform = true -> forall row, In row data -> length row = length labels).
Proof.
  intros uniform order labels data ci bn bi Ho H. destruct labels as [|x0 l0]; [discriminate|]. set (labels := x0 :: l0) in *.
  change (load_columns eqb strip convert uniform order (labels :: data)) with
    (if uniform && existsb (fun row => negb (Nat.eqb (length row) (length labels - 1 + 1))) data then BadRowLength
     else read_columns eqb convert data (label_columns eqb strip 0 labels []) (order (label_columns eqb strip 0 labels [])) [] (repeat None (length labels - 1 + 1))) in H.
  destruct (uniform && existsb _ data) eqn:U in H; [discriminate|].
  assert (Ln : length labels - 1 + 1 = length labels) by (unfold labels; cbn; lia). rewrite Ln in *.
  destruct (values_nodup labels _ (Ho _)) as (D1 & D2 & I).
  destruct (read_columns_ok _ _ _ _ _ _ _ _ D1 D2 ltac:(intros k i X; rewrite repeat_length; apply I in X; apply (last_lt _ _ _ X)) H) as (-> & A2 & A3 & A4 & A5).
  rewrite repeat_length in A2. split; [exact A2|]. split.
  - intros k i. rewrite label_get. split; [intros [(p & -> & X)|(_ & X)]; [exact X|discriminate]|intros X; left; exists i; auto].
  - split; [intros k i X; apply A3, I, X|]. split.
    + intros k X. destruct (dict_get eqb k (label_columns eqb strip 0 labels [])) as [i|] eqn:E.
      * apply label_get in E. destruct E as [(p & -> & E)|(_ & E)]; [exists (0 + p); exact E|discriminate].
      * exfalso. apply X. rewrite A4; [reflexivity|]. intros Y. apply in_map_iff in Y. destruct Y as ((k', i) & <- & Y). apply I in Y. cbn [fst] in *.
        assert (Z : dict_get eqb k' (label_columns eqb strip 0 labels []) = Some i) by (apply label_get; left; exists i; auto). congruence.
    + intros -> row Hr. rewrite andb_true_l in U. destruct (Nat.eqb (length row) (length labels)) eqn:En; [apply Nat.eqb_eq, En|]. exfalso.
      assert (Z : existsb (fun r => negb (Nat.eqb (length r) (length labels))) data = true) by (apply existsb_exists; exists row; rewrite En; auto). congruence.
Qed.

(** If labels are distinct, rows are as long as the header and all cells can be
    converted, it returns the transposed table: column i under its label and under i. *)
Theorem C81_transposes : forall uniform order labels data,
  (forall l, Permutation (order l) l) -> labels <> [] -> NoDup (map strip labels) ->
  (forall row, In row data -> length row = length labels) -> (forall row x, In row data -> In x row -> convert x <> None) ->
  exists ci bn bi, load_columns eqb strip convert uniform order (labels :: data) = Loaded ci bn bi /\ length bi = length labels /\
    forall i x, nth_error labels i = Some x -> exists c, length c = length data /\
      dict_get eqb (strip x) ci = Some i /\ dict_get eqb (strip x) bn = Some c /\ nth_error bi i = Some (Some c) /\
      forall r row, nth_error data r = Some row -> exists y, nth_error row i = Some y /\ nth_error c r = convert y.
Proof.
  intros uniform order labels data Ho Hl D L C. destruct labels as [|x0 l0]; [congruence|]. set (labels := x0 :: l0) in *.
  assert (Ln : length labels - 1 + 1 = length labels) by (unfold labels; cbn; lia).
  assert (Hf : filter (fun row : list S => match row with [] => false | _ => true end) data = data).
  { clear C. induction data as [|row data IH]; [reflexivity|]. cbn [filter]. pose proof (L row (or_introl eq_refl)) as X. destruct row; [discriminate X|].
    f_equal. apply IH. intros r Hr. apply L. right. exact Hr. }
  assert (Hc : forall i, i < length labels -> exists c, read_column convert i data = inl c).
  { intros i Hi. assert (X : exists c, Forall2 (fun row b => exists x, nth_error row i = Some x /\ convert x = Some b) data c).
    { clear Hf. induction data as [|row data IH]; [exists []; constructor|]. destruct IH as (c & F); [intros r Hr; apply L; right; exact Hr|intros r x Hr; apply C; right; exact Hr|].
      destruct (nth_error row i) as [y|] eqn:E; [|apply nth_error_None in E; rewrite (L row (or_introl eq_refl)) in E; lia].
      pose proof (C row y (or_introl eq_refl) (nth_error_In _ _ E)) as Y. destruct (convert y) as [b|] eqn:Eb; [|congruence]. exists (b :: c). constructor; [exists y; auto|exact F]. }
    destruct X as (c & F). exists c. apply read_column_ok. unfold column_of. rewrite Hf. exact F. }
  assert (T : exists ci bn bi, load_columns eqb strip convert uniform order (labels :: data) = Loaded ci bn bi).
  { change (load_columns eqb strip convert uniform order (labels :: data)) with
      (if uniform && existsb (fun row => negb (Nat.eqb (length row) (length labels - 1 + 1))) data then BadRowLength
       else read_columns eqb convert data (label_columns eqb strip 0 labels []) (order (label_columns eqb strip 0 labels [])) [] (repeat None (length labels - 1 + 1))).
    replace (existsb (fun row => negb (Nat.eqb (length row) (length labels - 1 + 1))) data) with false.
    - rewrite andb_false_r. destruct (values_nodup labels _ (Ho _)) as (_ & _ & I).
      assert (J : forall k i, In (k, i) (order (label_columns eqb strip 0 labels [])) -> i < length labels) by (intros k i X; apply I in X; apply (last_lt _ _ _ X)).
      generalize (repeat (@None (list B)) (length labels - 1 + 1)). generalize (@nil (K * list B)). revert J. generalize (order (label_columns eqb strip 0 labels [])).
      induction l as [|(k, i) ks IH]; intros J bn bi; [cbn; eauto|]. cbn [read_columns]. destruct (Hc i (J k i (or_introl eq_refl))) as (c & ->).
      apply IH. intros k' i' X. apply (J k' i'). right. exact X.
    - symmetry. destruct (existsb _ data) eqn:E; [|reflexivity]. apply existsb_exists in E. destruct E as (row & X & Y). rewrite (L row X), Ln, Nat.eqb_refl in Y. discriminate. }
  destruct T as (ci & bn & bi & T). exists ci, bn, bi. split; [exact T|]. destruct (C81_columns _ _ _ _ _ _ _ Ho T) as (A1 & A2 & A3 & _). split; [exact A1|].
  intros i x Hx. assert (U : last_label labels (strip x) i).
  { split; [exists x; auto|]. intros j y Hy E. assert (j = i); [|lia]. apply (proj1 (NoDup_nth_error (map strip labels)) D).
    - rewrite map_length. apply nth_error_Some. congruence.
    - rewrite (map_nth_error strip _ _ Hy), (map_nth_error strip _ _ Hx). congruence. }
  destruct (A3 _ _ U) as (c & E & G1 & G2). exists c. unfold column_of in E. rewrite Hf in E. split; [clear - E; induction E; cbn; congruence|].
  split; [apply A2, U|]. split; [exact G1|]. split; [exact G2|]. clear - E. induction E as [|row b data c (y & Y1 & Y2) E IH]; intros r row' Hr; [destruct r; discriminate|].
  destruct r as [|r]; [|apply IH, Hr]. cbn in Hr. injection Hr as <-. exists y. split; [exact Y1|cbn; congruence].
Qed.
End CSV.
Print Assumptions C81_columns.
Print Assumptions C81_transposes.

(** With a repeated label, by_idx has no column where the label stands first. *)
Theorem C81_repeated_refuted : exists (labels : list nat) data ci bn bi,
  (forall row, In row data -> length row = length labels) /\
  load_columns Nat.eqb (fun x => x) (@Some nat) true (fun l => l) (labels :: data) = Loaded ci bn bi /\ nth_error bi 0 = Some None.
Proof.
  exists [7; 8; 7], [[1; 2; 3]; [4; 5; 6]]. do 3 eexists. split; [intros row [<-|[<-|[]]]; reflexivity|]. split; [vm_compute; reflexivity|reflexivity].
Qed.
Print Assumptions C81_repeated_refuted.

(** An empty line, which the columns would leave out, is rejected by default. *)
Theorem C81_empty_line_refuted : exists (labels : list nat) data1 data2,
  (forall row, In row (data1 ++ data2) -> length row = length labels) /\ labels <> [] /\
  load_columns Nat.eqb (fun x => x) (@Some nat) true (fun l => l) (labels :: data1 ++ [] :: data2) = BadRowLength /\
  load_columns Nat.eqb (fun x => x) (@Some nat) false (fun l => l) (labels :: data1 ++ [] :: data2) =
  load_columns Nat.eqb (fun x => x) (@Some nat) true (fun l => l) (labels :: data1 ++ data2).
Proof.
  exists [7; 8], [[1; 2]], [[3; 4]]. split; [intros row [<-|[<-|[]]]; reflexivity|]. split; [discriminate|]. split; vm_compute; reflexivity.
Qed.
Print Assumptions C81_empty_line_refuted.

Example C81_sample : NoDup (map (fun x => x) [7; 8]) /\
  load_columns Nat.eqb (fun x => x) (fun x => Some (10 * x)) true (@rev _) [[7; 8]; [1; 2]; [3; 4]; [5; 6]] =
  Loaded [(7, 0); (8, 1)] [(8, [20; 40; 60]); (7, [10; 30; 50])] [Some [10; 30; 50]; Some [20; 40; 60]].
Proof. split; [repeat constructor; cbn; intuition discriminate|vm_compute; reflexivity]. Qed.
