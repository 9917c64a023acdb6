(** C82: overheads read from a file are never below the measurements. *)
From Coq Require Import ZArith QArith Lqa List Bool String Permutation Lia.
From Verif Require Import Base ModelPwl SpecPwl ProofPwl PropPwl ModelCSV PropCSV ModelOvhFile.
Import ListNotations.
Open Scope string_scope.

Section FILE.
Variable parse : string -> option Q.
Variable strip : string -> string.
Variable order : list (string * nat) -> list (string * nat).
Hypothesis order_ok : forall l, Permutation (order l) l.

(** ** Specification *)
(** the r-th row of a file has the number q in the (last) column with a label *)
Definition measured (labels : list string) (data : list (list string)) (label : string) (r : nat) (q : Q) : Prop :=
  exists i row x, last_label strip labels label i /\ nth_error data r = Some row /\ nth_error row i = Some x /\ parse x = Some q.

Definition present (labels : list string) (label : string) : Prop := exists x, In x labels /\ strip x = label.

(** ** Proof *)
Lemma last_exists : forall labels k, present labels k -> exists i, last_label strip labels k i.
Proof.
  intros labels k H. induction labels as [|x labels IH] using rev_ind; [destruct H as (? & [] & _)|].
  destruct (String.eqb (strip x) k) eqn:E.
  - apply String.eqb_eq in E. exists (List.length labels). split; [exists x; split; [rewrite nth_error_app2 by lia; rewrite Nat.sub_diag; reflexivity|exact E]|].
    intros j y Hy _. assert (j < List.length (labels ++ [x]))%nat by (apply nth_error_Some; congruence). rewrite app_length in H0. cbn in H0. lia.
  - apply String.eqb_neq in E. destruct IH as (i & (y & Y1 & Y2) & L).
    { destruct H as (z & Hz & Ez). apply in_app_or in Hz. destruct Hz as [Hz|[<-|[]]]; [exists z; auto|congruence]. }
    exists i. split; [exists y; split; [rewrite nth_error_app1 by (apply nth_error_Some; congruence); exact Y1|exact Y2]|].
    intros j z Hz Ez. destruct (Nat.lt_ge_cases j (List.length labels)) as [Lj|Lj].
    + rewrite nth_error_app1 in Hz by exact Lj. apply (L j z Hz Ez).
    + rewrite nth_error_app2 in Hz by exact Lj. destruct (j - List.length labels)%nat as [|m]; [cbn in Hz; congruence|destruct m; discriminate].
Qed.

Lemma last_unique : forall labels k i j, last_label strip labels k i -> last_label strip labels k j -> i = j.
Proof. intros labels k i j ((x & X1 & X2) & LX) ((y & Y1 & Y2) & LY). pose proof (LX j y Y1 Y2). pose proof (LY i x X1 X2). lia. Qed.

Definition scaled (scale : option Z) (points : list (Q * Q)) : list (Q * Q) :=
  match scale with Some n => map (fun p => (inject_Z n * fst p, snd p)%Q) points | None => points end.

Lemma fields_ok : forall bn xs scale nd fields o o', load_fields bn xs scale nd fields o = Some o' -> NoDup (map snd fields) ->
  (forall n f, In (n, f) fields -> match dict_get String.eqb n bn with
     | None => o' f = o f
     | Some ys => nd = true /\ monotonic_pwlin (scaled scale (combine xs ys)) = Some (o' f) end) /\
  (forall f, ~ In f (map snd fields) -> o' f = o f).
Proof.
  induction fields as [|(n, f) fields IH]; intros o o' H D; cbn [load_fields] in H.
  - injection H as <-. split; [intros ? ? []|reflexivity].
  - cbn in D. inversion D as [|? ? N D']; subst. destruct (dict_get String.eqb n bn) as [ys|] eqn:E.
    + cbv zeta in H. destruct nd; [|discriminate]. change (match scale with Some num_cpus => map (fun p => (inject_Z num_cpus * fst p, snd p)%Q) (combine xs ys) | None => combine xs ys end) with (scaled scale (combine xs ys)) in H.
      destruct (monotonic_pwlin (scaled scale (combine xs ys))) as [g|] eqn:G; [|discriminate]. destruct (IH _ _ H D') as (I1 & I2). split.
      * intros n' f' [X|X].
        -- injection X as <- <-. rewrite E. split; [reflexivity|]. rewrite (I2 f N). unfold set_field. rewrite String.eqb_refl. exact G.
        -- specialize (I1 n' f' X). destruct (dict_get String.eqb n' bn); [exact I1|]. rewrite I1. unfold set_field.
           destruct (String.eqb f' f) eqn:Ef; [|reflexivity]. apply String.eqb_eq in Ef. subst. exfalso. apply N. change f with (snd (n', f)). apply in_map, X.
      * intros f' X. cbn in X. rewrite I2 by tauto. unfold set_field. destruct (String.eqb f' f) eqn:Ef; [|reflexivity]. apply String.eqb_eq in Ef. subst. tauto.
    + destruct (IH _ _ H D') as (I1 & I2). split.
      * intros n' f' [X|X]; [|apply I1, X]. injection X as <- <-. rewrite E. apply I2, N.
      * intros f' X. cbn in X. apply I2. tauto.
Qed.

Lemma zero_ok : forall fields o f, (forall g, o g = OLinear (const 0)) -> zero_fields fields o f = OLinear (const 0).
Proof.
  unfold zero_fields. induction fields as [|(n, g) fields IH]; intros o f H; [apply H|]. cbn [fold_left]. apply IH.
  intros k. unfold set_field. destruct (String.eqb k (snd (n, g))); [reflexivity|apply H].
Qed.

(** the points of two columns *)
Lemma zip_rows : forall (data : list (list string)) i j xs ys,
  Forall2 (fun row b => exists x, nth_error row i = Some x /\ parse x = Some b) data xs ->
  Forall2 (fun row b => exists x, nth_error row j = Some x /\ parse x = Some b) data ys ->
  forall r p, nth_error (combine xs ys) r = Some p <->
    exists row x y, nth_error data r = Some row /\ nth_error row i = Some x /\ parse x = Some (fst p) /\ nth_error row j = Some y /\ parse y = Some (snd p).
Proof.
  intros data i j xs ys F. revert ys. induction F as [|row a data xs (x & X1 & X2) F IH]; intros ys G; inversion G as [|? b ? ys' (y & Y1 & Y2) G']; subst; intros r p.
  - split; [destruct r; discriminate|intros (row & ? & ? & E & _); destruct r; discriminate].
  - destruct r as [|r]; cbn [combine nth_error].
    + split.
      * intros E. injection E as <-. exists row, x, y. auto.
      * intros (row' & x' & y' & E & A1 & A2 & A3 & A4). injection E as <-. destruct p as (p1, p2). cbn [fst snd] in *.
        assert (x' = x) by congruence. assert (y' = y) by congruence. subst. congruence.
    + apply IH, G'.
Qed.

Lemma nonempty_rows : forall (labels : list string) (data : list (list string)), labels <> [] -> (forall row, In row data -> List.length row = List.length labels) ->
  filter (fun row : list string => match row with [] => false | _ => true end) data = data.
Proof.
  intros labels data N L. induction data as [|row data IH]; [reflexivity|]. cbn [filter]. pose proof (L row (or_introl eq_refl)) as X.
  destruct row; [destruct labels; [congruence|discriminate X]|]. f_equal. apply IH. intros r Hr. apply L. right. exact Hr.
Qed.

Lemma nth_scaled : forall scale l r p, nth_error (scaled scale l) r = Some p <->
  exists q, nth_error l r = Some q /\ p = (match scale with Some n => (inject_Z n * fst q)%Q | None => fst q end, snd q).
Proof.
  intros [n|] l r p; cbn [scaled].
  - rewrite nth_error_map. destruct (nth_error l r) as [q|]; cbn; split; [intros E; injection E as <-; exists q; auto|intros (q' & E & ->); congruence|discriminate|intros (? & ? & _); discriminate].
  - split; [intros E; exists p; split; [exact E|destruct p; reflexivity]|intros (q & E & ->); rewrite E; destruct q; reflexivity].
Qed.

Definition at_scale (scale : option Z) (x : Q) : Q := match scale with Some n => (inject_Z n * x)%Q | None => x end.

(** what the function in a field is made of *)
Lemma points_of : forall labels data ci bn bi key name xs ys scale,
  load_columns String.eqb strip parse true order (labels :: data) = Loaded ci bn bi ->
  dict_get String.eqb key bn = Some xs -> dict_get String.eqb name bn = Some ys ->
  forall r p, nth_error (scaled scale (combine xs ys)) r = Some p <->
    exists x, measured labels data key r x /\ measured labels data name r (snd p) /\ fst p = at_scale scale x.
Proof.
  intros labels data ci bn bi key name xs ys scale H Hx Hy r p.
  assert (N : labels <> []) by (intros ->; discriminate H).
  destruct (C81_columns String.eqb String.eqb_eq strip parse true order labels data ci bn bi order_ok H) as (_ & _ & A3 & A4 & A5).
  destruct (A4 key ltac:(congruence)) as (i & Li). destruct (A4 name ltac:(congruence)) as (j & Lj).
  destruct (A3 _ _ Li) as (xs' & Cx & Gx & _). destruct (A3 _ _ Lj) as (ys' & Cy & Gy & _).
  assert (xs' = xs) by congruence. assert (ys' = ys) by congruence. subst xs' ys'.
  unfold column_of in Cx, Cy. rewrite (nonempty_rows labels data N (A5 eq_refl)) in Cx, Cy.
  rewrite nth_scaled. pose proof (zip_rows data i j xs ys Cx Cy) as Z. split.
  - intros (q & E & ->). apply Z in E. destruct E as (row & x & y & E & B1 & B2 & B3 & B4). exists (fst q). split; [|split].
    + exists i, row, x. auto.
    + exists j, row, y. auto.
    + reflexivity.
  - intros (x & (i' & row & sx & L1 & E1 & B1 & B2) & (j' & row' & sy & L2 & E2 & B3 & B4) & E).
    rewrite (last_unique _ _ _ _ L1 Li) in B1. rewrite (last_unique _ _ _ _ L2 Lj) in B3. assert (row' = row) by congruence. subst row'.
    exists (x, snd p). split; [apply Z; exists row, sx, sy; auto|]. destruct p as (p1, p2). cbn [fst snd] in *. subst p1. reflexivity.
Qed.

Lemma load_by_name : forall labels data ci bn bi k, load_columns String.eqb strip parse true order (labels :: data) = Loaded ci bn bi ->
  (dict_get String.eqb k bn = None <-> ~ present labels k).
Proof.
  intros labels data ci bn bi k H.
  destruct (C81_columns String.eqb String.eqb_eq strip parse true order labels data ci bn bi order_ok H) as (_ & _ & A3 & A4 & _). split.
  - intros E P. destruct (last_exists labels k P) as (i & L). destruct (A3 _ _ L) as (c & _ & G & _). congruence.
  - intros P. destruct (dict_get String.eqb k bn) eqn:E; [|reflexivity]. exfalso. apply P. destruct (A4 k ltac:(congruence)) as (i & (x & X1 & X2) & _).
    exists x. split; [eapply nth_error_In; exact X1|exact X2].
Qed.

Lemma safe_points : forall labels data ci bn bi key name xs ys scale g,
  load_columns String.eqb strip parse true order (labels :: data) = Loaded ci bn bi ->
  dict_get String.eqb key bn = Some xs -> dict_get String.eqb name bn = Some ys ->
  monotonic_pwlin (scaled scale (combine xs ys)) = Some g ->
  (forall n, scale = Some n -> (0 < n)%Z) ->
  (forall r a b, measured labels data key r a -> measured labels data key (S r) b -> (a < b)%Q) ->
  (forall r v, measured labels data name r v -> (0 <= v)%Q) ->
  (forall x y, (x <= y)%Q -> (overhead_call g x <= overhead_call g y)%Q) /\
  (forall r x v, measured labels data key r x -> measured labels data name r v -> (v <= overhead_call g (at_scale scale x))%Q).
Proof.
  intros labels data ci bn bi key name xs ys scale g H Hx Hy G Hs Inc Pos. pose proof (points_of _ _ _ _ _ _ _ _ _ scale H Hx Hy) as P.
  assert (I : increasing (scaled scale (combine xs ys))).
  { intros r p q Hp Hq. apply P in Hp. apply P in Hq. destruct Hp as (a & A1 & _ & ->). destruct Hq as (b & B1 & _ & ->). pose proof (Inc r a b A1 B1) as L.
    destruct scale as [n|]; cbn [at_scale]; [|exact L]. specialize (Hs n eq_refl). assert (0 < inject_Z n)%Q by (unfold Qlt; cbn; lia). rewrite !(Qmult_comm (inject_Z n)). apply Qmult_lt_compat_r; assumption. }
  split; [intros x y; apply (C27_nondecreasing _ _ x y I G)|]. intros r x v Mx Mv.
  assert (E : nth_error (scaled scale (combine xs ys)) r = Some (at_scale scale x, v)) by (apply P; exists x; auto).
  apply (C27_dominates _ g (at_scale scale x, v) I); [|exact G|eapply nth_error_In; exact E].
  apply Forall_forall. intros p Hp. apply In_nth_error in Hp. destruct Hp as (k & Hk). apply P in Hk. destruct Hk as (? & _ & M & _). apply (Pos k _ M).
Qed.

(** The columns that overhead files may have and the overheads they stand for, written
    out once more so that the theorems do not depend on the table in the model. *)
Definition documented_overheads : list (string * string) :=
  [("IPI-LATENCY", "ipi_latency"); ("SCHEDULE", "schedule"); ("RELEASE", "release");
   ("CXS", "ctx_switch"); ("TICK", "tick"); ("RELEASE-LATENCY", "release_latency");
   ("LOCK", "lock"); ("UNLOCK", "unlock"); ("READ-LOCK", "read_lock");
   ("READ-UNLOCK", "read_unlock"); ("SYSCALL-IN", "syscall_in"); ("SYSCALL-OUT", "syscall_out")].

(** For every overhead in the file the function loaded never decreases and is, at every
    task count measured (times the number of processors if counts are per processor),
    at least the value measured.  Overheads that are not in the file are 0. *)
Theorem C82_overheads : forall labels data nd custom scale o name field,
  overheads_from_file parse strip order (labels :: data) nd custom scale = Some o ->
  NoDup (map snd (documented_overheads ++ custom)) -> In (name, field) (documented_overheads ++ custom)%list ->
  (forall n, scale = Some n -> (0 < n)%Z) ->
  (forall r a b, measured labels data "TASK-COUNT" r a -> measured labels data "TASK-COUNT" (S r) b -> (a < b)%Q) ->
  (forall r v, measured labels data name r v -> (0 <= v)%Q) ->
  (forall x y, (x <= y)%Q -> (overhead_call (o field) x <= overhead_call (o field) y)%Q) /\
  (forall r x v, measured labels data "TASK-COUNT" r x -> measured labels data name r v -> (v <= overhead_call (o field) (at_scale scale x))%Q) /\
  (~ present labels name -> forall x, (overhead_call (o field) x == 0)%Q).
Proof.
  intros labels data nd custom scale o name field H D Hin Hs Inc Pos. change documented_overheads with FIELD_MAPPING in *. unfold overheads_from_file, load_approximations in H.
  destruct (load_columns String.eqb strip parse true order (labels :: data)) as [ci bn bi| | | | |] eqn:E; try discriminate.
  destruct (dict_get String.eqb "TASK-COUNT" bn) as [xs|] eqn:Ex; [|discriminate]. destruct (fields_ok _ _ _ _ _ _ _ H D) as (F & _). specialize (F name field Hin).
  assert (Z0 : forall x, (overhead_call (OLinear (const 0)) x == 0)%Q) by (intros x; reflexivity).
  destruct (dict_get String.eqb name bn) as [ys|] eqn:Ey.
  - destruct F as (_ & G). destruct (safe_points _ _ _ _ _ _ _ _ _ scale _ E Ex Ey G Hs Inc Pos) as (S1 & S2). split; [exact S1|]. split; [exact S2|].
    intros P. apply (load_by_name _ _ _ _ _ name E) in P. congruence.
  - rewrite (zero_ok custom _ field (fun _ => eq_refl)) in F. rewrite F. apply (load_by_name _ _ _ _ _ name E) in Ey.
    split; [intros; rewrite !Z0; lra|]. split; [|intros _; exact Z0].
    intros r x v _ (i & row & s & ((y & Y1 & Y2) & _) & _). exfalso. apply Ey. exists y. split; [eapply nth_error_In; exact Y1|exact Y2].
Qed.

(** Cache delays: the cost of every level, and so the maximal cost, is at least the
    value measured for a working set size. *)
Theorem C82_cache : forall labels data nd o name,
  cache_from_file parse strip order (labels :: data) nd = Some o -> In (name, name) CACHE_MAPPING ->
  (forall r a b, measured labels data "WSS" r a -> measured labels data "WSS" (S r) b -> (a < b)%Q) ->
  (forall r v, measured labels data name r v -> (0 <= v)%Q) ->
  forall r x v, measured labels data "WSS" r x -> measured labels data name r v ->
    (v <= overhead_call (o name) x)%Q /\ (v <= max_cost o x)%Q.
Proof.
  intros labels data nd o name H Hin Inc Pos r x v Mx Mv. unfold cache_from_file in H.
  destruct (load_columns String.eqb strip parse true order (labels :: data)) as [ci bn bi| | | | |] eqn:E; try discriminate.
  destruct (dict_get String.eqb "WSS" bn) as [xs|] eqn:Ex; [|discriminate].
  assert (D : NoDup (map snd CACHE_MAPPING)) by (repeat constructor; cbn; intuition discriminate).
  destruct (fields_ok _ _ _ _ _ _ _ H D) as (F & _). specialize (F name name Hin).
  assert (A : (v <= overhead_call (o name) x)%Q).
  { destruct (dict_get String.eqb name bn) as [ys|] eqn:Ey.
    - destruct F as (_ & G). destruct (safe_points _ _ _ _ _ _ _ _ _ None _ E Ex Ey G ltac:(discriminate) Inc Pos) as (_ & S2). apply (S2 r x v Mx Mv).
    - apply (load_by_name _ _ _ _ _ name E) in Ey. destruct Mv as (i & row & s & ((y & Y1 & Y2) & _) & _). exfalso. apply Ey. exists y. split; [eapply nth_error_In; exact Y1|exact Y2]. }
  split; [exact A|]. unfold max_cost. cbn [CACHE_MAPPING tl fold_left snd].
  assert (M : forall a b, (a <= py_max a b /\ b <= py_max a b)%Q).
  { intros a b. unfold py_max. destruct (Qle_bool b a) eqn:Eq; cbn; [apply Qle_bool_iff in Eq; split; lra|].
    assert (a < b)%Q by (apply Qnot_le_lt; intros X; apply Qle_bool_iff in X; congruence). split; lra. }
  set (m0 := overhead_call (o "MEM") x) in *. set (m1 := overhead_call (o "L1") x) in *. set (m2 := overhead_call (o "L2") x) in *. set (m3 := overhead_call (o "L3") x) in *.
  pose proof (M m0 m1) as (? & ?). pose proof (M (py_max m0 m1) m2) as (? & ?). pose proof (M (py_max (py_max m0 m1) m2) m3) as (? & ?).
  cbn in Hin. destruct Hin as [X|[X|[X|[X|[]]]]]; injection X as <-; fold m0 m1 m2 m3 in A; lra.
Qed.

(** Without non_decreasing a file with any overhead cannot be loaded. *)
Theorem C82_plain_fails : forall labels data custom scale name field,
  In (name, field) (documented_overheads ++ custom)%list -> present labels name ->
  overheads_from_file parse strip order (labels :: data) false custom scale = None.
Proof.
  intros labels data custom scale name field Hin P. change documented_overheads with FIELD_MAPPING in *. unfold overheads_from_file, load_approximations.
  destruct (load_columns String.eqb strip parse true order (labels :: data)) as [ci bn bi| | | | |] eqn:E; try reflexivity.
  destruct (dict_get String.eqb "TASK-COUNT" bn) as [xs|]; [|reflexivity].
  assert (X : dict_get String.eqb name bn <> None) by (intros X; apply (load_by_name _ _ _ _ _ name E) in X; apply X, P).
  generalize (zero_fields custom (fun _ => OLinear (const 0))). revert Hin. generalize (FIELD_MAPPING ++ custom)%list.
  induction l as [|(n, f) l IH]; intros Hin o; [destruct Hin|]. cbn [load_fields]. destruct (dict_get String.eqb n bn) eqn:En; [reflexivity|].
  apply IH. destruct Hin as [Y|Y]; [injection Y as <- <-; congruence|exact Y].
Qed.

(** A proper file with at least one row can be loaded. *)
Theorem C82_loads : forall labels data custom scale,
  NoDup (map strip labels) -> present labels "TASK-COUNT" -> data <> [] ->
  (forall row, In row data -> List.length row = List.length labels) -> (forall row x, In row data -> In x row -> parse x <> None) ->
  exists o, overheads_from_file parse strip order (labels :: data) true custom scale = Some o.
Proof.
  intros labels data custom scale D T N L C. assert (Nl : labels <> []) by (destruct T as (x & X & _); intros ->; destruct X).
  destruct (C81_transposes String.eqb String.eqb_eq strip parse true order labels data order_ok Nl D L C) as (ci & bn & bi & E & _ & A).
  unfold overheads_from_file, load_approximations. rewrite E.
  assert (Len : forall k ys, dict_get String.eqb k bn = Some ys -> List.length ys = List.length data).
  { intros k ys Hk. assert (P : present labels k).
    { destruct (C81_columns String.eqb String.eqb_eq strip parse true order labels data ci bn bi order_ok E) as (_ & _ & _ & A4 & _).
      destruct (A4 k ltac:(congruence)) as (i & (x & X1 & X2) & _). exists x. split; [eapply nth_error_In; exact X1|exact X2]. }
    destruct P as (x & X & <-). apply In_nth_error in X. destruct X as (i & Hi). destruct (A i x Hi) as (c & Lc & _ & G & _). congruence. }
  destruct (dict_get String.eqb "TASK-COUNT" bn) as [xs|] eqn:Ex.
  - pose proof (Len _ _ Ex) as Lx. generalize (zero_fields custom (fun _ => OLinear (const 0))). generalize (FIELD_MAPPING ++ custom)%list.
    induction l as [|(n, f) l IH]; intros o; [exists o; reflexivity|]. cbn [load_fields]. destruct (dict_get String.eqb n bn) as [ys|] eqn:En; [|apply IH]. cbv zeta.
    change (match scale with Some num_cpus => map (fun p => (inject_Z num_cpus * fst p, snd p)%Q) (combine xs ys) | None => combine xs ys end) with (scaled scale (combine xs ys)).
    destruct (C27_defined (scaled scale (combine xs ys))) as (g & ->); [|apply IH].
    pose proof (Len _ _ En) as Ly. destruct data as [|d data']; [congruence|]. destruct xs as [|a xs]; [discriminate Lx|]. destruct ys as [|b ys]; [discriminate Ly|].
    destruct scale; discriminate.
  - apply (load_by_name _ _ _ _ _ _ E) in Ex. contradiction.
Qed.
End FILE.
Print Assumptions C82_overheads.
Print Assumptions C82_cache.
Print Assumptions C82_plain_fails.
Print Assumptions C82_loads.

Definition digit (s : string) : option Q :=
  if String.eqb s "0" then Some 0%Q else if String.eqb s "1" then Some 1%Q else if String.eqb s "2" then Some 2%Q else if String.eqb s "3" then Some 3%Q else None.

(** A file with a header only raises IndexError. *)
Theorem C82_header_only_refuted : exists labels,
  In "TASK-COUNT" labels /\ NoDup labels /\ overheads_from_file digit (fun s => s) (fun l => l) [labels] true [] None = None.
Proof. exists ["TASK-COUNT"; "TICK"]. split; [left; reflexivity|]. split; [repeat constructor; cbn; intuition discriminate|vm_compute; reflexivity]. Qed.
Print Assumptions C82_header_only_refuted.

Example C82_sample : NoDup (map snd (documented_overheads ++ [])) /\
  option_map (fun o => (Qred (overhead_call (o "tick") 2), Qred (overhead_call (o "tick") 4), Qred (overhead_call (o "lock") 5)))
    (overheads_from_file digit (fun s => s) (@rev _) [["TICK"; "TASK-COUNT"]; ["1"; "1"]; ["3"; "2"]; ["2"; "3"]] true [] (Some 2%Z)) = Some (1, 3, 0)%Q /\
  measured digit (fun s => s) ["TICK"; "TASK-COUNT"] [["1"; "1"]; ["3"; "2"]; ["2"; "3"]] "TICK" 1 3.
Proof.
  split; [repeat constructor; cbn; intuition discriminate|]. split; [vm_compute; reflexivity|].
  exists 0%nat, ["3"; "2"], "3". split; [|repeat split]. split; [exists "TICK"; split; reflexivity|].
  intros [|[|[|j]]] x Hx Ex; cbn in Hx; try discriminate; [lia|injection Hx as <-; discriminate].
Qed.
