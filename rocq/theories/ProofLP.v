(** Lemmas about the variables and the solutions of linear programs. *)
From Coq Require Import NArith ZArith QArith Qround List Bool Lia Lqa.
From Verif Require Import ModelLP SpecLP.
Import ListNotations.
Open Scope N_scope.

(** * Encoding *)
Lemma lor_shift a b n : b < 2 ^ n -> N.lor (N.shiftl a n) b = a * 2 ^ n + b.
Proof.
  intros H. set (x := N.lor (N.shiftl a n) b).
  assert (D : x / 2 ^ n = a).
  { rewrite <- N.shiftr_div_pow2. unfold x. rewrite N.shiftr_lor, N.shiftr_shiftl_l by lia. rewrite N.sub_diag, N.shiftl_0_r, N.shiftr_div_pow2, N.div_small by exact H. apply N.lor_0_r. }
  assert (M : x mod 2 ^ n = b).
  { rewrite <- N.land_ones. unfold x. rewrite N.land_lor_distr_l, !N.land_ones. rewrite N.shiftl_mul_pow2, N.mod_mul by (apply N.pow_nonzero; lia). rewrite N.mod_small by exact H. apply N.lor_0_l. }
  rewrite (N.div_mod x (2 ^ n)) by (apply N.pow_nonzero; lia). rewrite D, M. lia.
Qed.

Lemma encode_value v : in_range v ->
  encode_request v = ((btype_code (v_type v) * 2 ^ 32 + N.of_nat (v_task v)) * 2 ^ 20 + N.of_nat (v_req v)) * 2 ^ 10 + N.of_nat (v_res v).
Proof.
  intros [H1 [H2 H3]]. unfold encode_request.
  replace (N.shiftl (btype_code (v_type v)) 62) with (N.shiftl (N.shiftl (btype_code (v_type v)) 32) 30) by (rewrite N.shiftl_shiftl; reflexivity).
  rewrite <- N.shiftl_lor, (lor_shift _ (N.of_nat (v_task v)) 32) by (apply (N.lt_trans _ (2 ^ 30)); [exact H1|reflexivity]).
  set (a := _ + _). replace (N.shiftl a 30) with (N.shiftl (N.shiftl a 20) 10) by (rewrite N.shiftl_shiftl; reflexivity).
  rewrite <- N.shiftl_lor, (lor_shift _ (N.of_nat (v_req v)) 20) by exact H3. rewrite lor_shift by exact H2. reflexivity.
Qed.

Lemma btype_code_inj a b : btype_code a = btype_code b -> a = b.
Proof. destruct a, b; cbn; intros H; try reflexivity; discriminate. Qed.

Lemma encode_inj v w : in_range v -> in_range w -> encode_request v = encode_request w -> v = w.
Proof.
  intros V W H. rewrite (encode_value v V), (encode_value w W) in H. destruct V as [V1 [V2 V3]], W as [W1 [W2 W3]].
  destruct v as [t r q b], w as [t' r' q' b']; cbn [v_task v_res v_req v_type] in *.
  assert (E : btype_code b = btype_code b' /\ N.of_nat t = N.of_nat t' /\ N.of_nat q = N.of_nat q' /\ N.of_nat r = N.of_nat r').
  { change (2 ^ 10) with 1024 in *. change (2 ^ 20) with 1048576 in *. change (2 ^ 30) with 1073741824 in *. change (2 ^ 32) with 4294967296 in *. lia. }
  destruct E as [E1 [E2 [E3 E4]]]. apply btype_code_inj in E1. f_equal; [lia|lia|lia|exact E1].
Qed.

Lemma decode v : in_range v -> get_task (encode_request v) = N.of_nat (v_task v) /\ get_res_id (encode_request v) = N.of_nat (v_res v) /\
  get_req_id (encode_request v) = N.of_nat (v_req v) /\ get_type (encode_request v) = btype_code (v_type v).
Proof.
  intros V. rewrite (encode_value v V). destruct V as [V1 [V2 V3]].
  assert (T : btype_code (v_type v) < 4) by (destruct (v_type v); cbn; lia).
  set (b := btype_code (v_type v)) in *. set (t := N.of_nat (v_task v)) in *. set (q := N.of_nat (v_req v)) in *. set (r := N.of_nat (v_res v)) in *. clearbody b t q r.
  unfold get_task, get_res_id, get_req_id, get_type.
  change 1073741823 with (N.ones 30). change 1023 with (N.ones 10). change 1048575 with (N.ones 20). change 15 with (N.ones 4).
  rewrite !N.land_ones, !N.shiftr_div_pow2.
  assert (D10 : (((b * 2 ^ 32 + t) * 2 ^ 20 + q) * 2 ^ 10 + r) / 2 ^ 10 = (b * 2 ^ 32 + t) * 2 ^ 20 + q) by (symmetry; apply (N.div_unique _ _ _ r); lia).
  assert (D30 : (((b * 2 ^ 32 + t) * 2 ^ 20 + q) * 2 ^ 10 + r) / 2 ^ 30 = b * 2 ^ 32 + t).
  { change (2 ^ 30) with (2 ^ 10 * 2 ^ 20). rewrite <- N.div_div by (compute; discriminate). rewrite D10. symmetry. apply (N.div_unique _ _ _ q); lia. }
  assert (D62 : (((b * 2 ^ 32 + t) * 2 ^ 20 + q) * 2 ^ 10 + r) / 2 ^ 62 = b).
  { change (2 ^ 62) with (2 ^ 30 * 2 ^ 32). rewrite <- N.div_div by (compute; discriminate). rewrite D30. symmetry. apply (N.div_unique _ _ _ t); [|lia]. apply (N.lt_trans _ (2 ^ 30)); [exact V1|reflexivity]. }
  rewrite D10, D30, D62. split; [|split; [|split]].
  - symmetry. apply (N.mod_unique _ _ (b * 4)); [exact V1|]. change (2 ^ 32) with (4 * 2 ^ 30). lia.
  - symmetry. apply (N.mod_unique _ _ ((b * 2 ^ 32 + t) * 2 ^ 20 + q)); [exact V2|]. lia.
  - symmetry. apply (N.mod_unique _ _ (b * 2 ^ 32 + t)); [exact V3|]. lia.
  - apply N.mod_small. change (2 ^ 4) with 16. lia.
Qed.

(** * Mappers *)
Lemma position_some key m i : position key m = Some i -> nth_error m i = Some key.
Proof.
  revert i; induction m as [|k r IH]; intros i H; cbn in H; [discriminate|]. destruct (N.eqb_spec k key) as [->|E].
  - injection H as <-. reflexivity.
  - destruct (position key r) as [j|]; [|discriminate]. injection H as <-. cbn. apply IH. reflexivity.
Qed.

Lemma position_none key m : position key m = None <-> ~ In key m.
Proof.
  induction m as [|k r IH]; cbn; [tauto|]. destruct (N.eqb_spec k key) as [->|E].
  - split; [discriminate|]. intros H. exfalso. apply H. left. reflexivity.
  - destruct (position key r); cbn.
    + split; [discriminate|]. intros H. exfalso. destruct IH as [_ IH]. assert (X : Some n = None) by (apply IH; tauto). discriminate.
    + split; [|reflexivity]. intros _ [X|X]; [congruence|]. apply IH in X; [exact X|reflexivity].
Qed.

Lemma position_lt key m i : position key m = Some i -> (i < length m)%nat.
Proof. intros H. apply position_some in H. apply nth_error_Some. congruence. Qed.

Lemma position_app key m m' i : position key m = Some i -> position key (m ++ m') = Some i.
Proof.
  revert i; induction m as [|k r IH]; intros i H; cbn in *; [discriminate|]. destruct (k =? key); [exact H|].
  destruct (position key r) as [j|]; [|discriminate]. rewrite (IH j eq_refl). exact H.
Qed.

Lemma position_new key m : position key m = None -> position key (m ++ [key]) = Some (length m).
Proof.
  induction m as [|k r IH]; cbn; intros H; [rewrite N.eqb_refl; reflexivity|]. destruct (k =? key); [discriminate|].
  destruct (position key r); [discriminate|]. rewrite IH; reflexivity.
Qed.

Lemma lookup_spec v m : exists ext, snd (lookup v m) = m ++ ext /\ position (encode_request v) (snd (lookup v m)) = Some (fst (lookup v m)) /\ (NoDup m -> NoDup (snd (lookup v m))).
Proof.
  unfold lookup, var_for_key. destruct (position (encode_request v) m) as [i|] eqn:P; cbn [fst snd].
  - exists []. rewrite app_nil_r. auto.
  - exists [encode_request v]. split; [reflexivity|]. split; [apply position_new; exact P|]. intros ND.
    apply position_none in P. clear - P ND. induction m as [|k r IH]; cbn; [constructor; [intros []|constructor]|].
    inversion ND as [|x y NI ND']; subst. constructor.
    + rewrite in_app_iff. intros [X|[X|[]]]; [contradiction|]. apply P. left. symmetry. exact X.
    + apply IH; [intros X; apply P; right; exact X|exact ND'].
Qed.

Lemma lookups_ext vs : forall m, exists ext, snd (lookups vs m) = m ++ ext /\ (NoDup m -> NoDup (snd (lookups vs m))).
Proof.
  induction vs as [|v r IH]; intros m; cbn.
  - exists []. rewrite app_nil_r. auto.
  - destruct (lookup_spec v m) as [e1 [H1 [_ N1]]]. destruct (lookup v m) as [i m1]. cbn [fst snd] in *. destruct (IH m1) as [e2 [H2 N2]]. destruct (lookups r m1) as [is m2]. cbn [fst snd] in *.
    exists (e1 ++ e2). rewrite H2, H1, app_assoc. split; [reflexivity|]. rewrite <- H1, <- H2. auto.
Qed.

Lemma lookups_positions vs : forall m n v i, nth_error vs n = Some v -> nth_error (fst (lookups vs m)) n = Some i ->
  position (encode_request v) (snd (lookups vs m)) = Some i.
Proof.
  induction vs as [|w r IH]; intros m n v i H1 H2; [destruct n; discriminate|]. cbn in *.
  destruct (lookup_spec w m) as [e1 [E1 [P1 _]]]. destruct (lookup w m) as [j m1]. cbn [fst snd] in *.
  destruct (lookups_ext r m1) as [e2 [E2 _]]. specialize (IH m1). destruct (lookups r m1) as [is m2]. cbn [fst snd] in *.
  destruct n as [|n]; cbn in *.
  - injection H1 as <-. injection H2 as <-. rewrite E2. apply position_app. exact P1.
  - eapply IH; eassumption.
Qed.

Lemma lookups_length vs : forall m, length (fst (lookups vs m)) = length vs.
Proof.
  induction vs as [|v r IH]; intros m; cbn; [reflexivity|]. destruct (lookup v m) as [i m1]. specialize (IH m1). destruct (lookups r m1). cbn in *. lia.
Qed.

Lemma lookups_dense vs : forall m i, (length m <= i)%nat -> (i < length (snd (lookups vs m)))%nat -> exists n, nth_error (fst (lookups vs m)) n = Some i.
Proof.
  induction vs as [|v r IH]; intros m i H1 H2; cbn in *; [lia|]. destruct (lookup v m) as [j m1] eqn:L. specialize (IH m1 i). destruct (lookups r m1) as [is m2]. cbn in *.
  unfold lookup, var_for_key in L. destruct (position (encode_request v) m) as [k|]; injection L as <- <-.
  - destruct (IH H1 H2) as [n Hn]. exists (S n). exact Hn.
  - rewrite app_length in IH. cbn in IH. destruct (Nat.eq_dec i (length m)) as [->|N]; [exists O; reflexivity|]. destruct (IH ltac:(lia) H2) as [n Hn]. exists (S n). exact Hn.
Qed.

Lemma lookups_all vs m v : In v vs -> exists i, position (encode_request v) (snd (lookups vs m)) = Some i.
Proof.
  intros H. apply In_nth_error in H. destruct H as [n H].
  assert (L : forall m, length (fst (lookups vs m)) = length vs).
  { clear. induction vs as [|v r IH]; intros m; cbn; [reflexivity|]. destruct (lookup v m) as [i m1]. specialize (IH m1). destruct (lookups r m1). cbn in *. lia. }
  assert (Ln : (n < length (fst (lookups vs m)))%nat) by (rewrite L; apply nth_error_Some; congruence).
  apply nth_error_Some in Ln. destruct (nth_error (fst (lookups vs m)) n) as [i|] eqn:E; [|congruence].
  exists i. eapply lookups_positions; eassumption.
Qed.

(** * Renaming *)
Open Scope Q_scope.

Lemma evaluate_rename {V W} (f : V -> W) x e : evaluate x (rename_exp f e) == evaluate (fun v => x (f v)) e.
Proof. induction e as [|t r IH]; cbn; [reflexivity|]. rewrite IH. reflexivity. Qed.

Lemma evaluate_ext {V} (x y : V -> Q) e : (forall v, In v (map snd e) -> x v == y v) -> evaluate x e == evaluate y e.
Proof.
  induction e as [|t r IH]; intros H; cbn; [reflexivity|]. rewrite IH by (intros v Hv; apply H; right; exact Hv). rewrite (H (snd t)) by (left; reflexivity). reflexivity.
Qed.

Lemma evaluate_app {V} (x : V -> Q) a b : evaluate x (a ++ b) == evaluate x a + evaluate x b.
Proof. induction a as [|t r IH]; [change (evaluate x b == 0 + evaluate x b); rewrite Qplus_0_l; reflexivity|]. change (fst t * x (snd t) + evaluate x (r ++ b) == fst t * x (snd t) + evaluate x r + evaluate x b). rewrite IH. ring. Qed.

Lemma in_lp_vars_eq {V} (lp : lprog V) e b v : In (e, b) (lp_eqs lp) -> In v (map snd e) -> In v (lp_vars lp).
Proof.
  intros H1 H2. unfold lp_vars. rewrite !in_app_iff. left. apply in_map_iff in H2. destruct H2 as [t [<- H2]]. apply in_map. apply in_concat. exists e. split; [|exact H2].
  apply in_map_iff. exists (e, b). auto.
Qed.
Lemma in_lp_vars_ineq {V} (lp : lprog V) e b v : In (e, b) (lp_ineqs lp) -> In v (map snd e) -> In v (lp_vars lp).
Proof.
  intros H1 H2. unfold lp_vars. rewrite !in_app_iff. right. left. apply in_map_iff in H2. destruct H2 as [t [<- H2]]. apply in_map. apply in_concat. exists e. split; [|exact H2].
  apply in_map_iff. exists (e, b). auto.
Qed.

(** A left inverse on the variables of the program transfers solutions. *)
Lemma feasible_rename {V W} (f : V -> W) (lp : lprog V) x :
  feasible (rename f lp) x -> feasible lp (fun v => x (f v)).
Proof.
  intros [F1 F2 F3 F4]. constructor.
  - intros v. apply F1.
  - intros v H. apply F2. cbn. apply in_map. exact H.
  - intros e b H. rewrite <- evaluate_rename. apply F3. cbn. apply in_map_iff. exists (e, b). auto.
  - intros e b H. rewrite <- evaluate_rename. apply F4. cbn. apply in_map_iff. exists (e, b). auto.
Qed.

Lemma feasible_unrename {V W} (f : V -> W) (g : W -> V) (lp : lprog V) y :
  (forall v, In v (lp_vars lp) -> g (f v) = v) -> feasible lp y -> feasible (rename f lp) (fun w => y (g w)).
Proof.
  intros G [F1 F2 F3 F4].
  assert (EV : forall e, (forall v, In v (map snd e) -> In v (lp_vars lp)) -> evaluate (fun w => y (g w)) (rename_exp f e) == evaluate y e).
  { intros e He. rewrite evaluate_rename. apply evaluate_ext. intros v Hv. rewrite (G v); [reflexivity|auto]. }
  constructor.
  - intros w. apply F1.
  - intros w H. cbn in H. apply in_map_iff in H. destruct H as [v [<- H]]. rewrite G; [apply F2; exact H|]. unfold lp_vars. rewrite !in_app_iff. auto.
  - intros e b H. cbn in H. apply in_map_iff in H. destruct H as [[e0 b0] [E H]]. cbn in E. injection E as <- <-. rewrite (EV e0 (fun v Hv => in_lp_vars_eq lp e0 b0 v H Hv)). apply F3; exact H.
  - intros e b H. cbn in H. apply in_map_iff in H. destruct H as [[e0 b0] [E H]]. cbn in E. injection E as <- <-. rewrite (EV e0 (fun v Hv => in_lp_vars_ineq lp e0 b0 v H Hv)). apply F4; exact H.
Qed.

Lemma optimum_rename {V W} (f : V -> W) (g : W -> V) (lp : lprog V) opt :
  (forall v, In v (lp_vars lp) -> g (f v) = v) -> optimum (rename f lp) opt <-> optimum lp opt.
Proof.
  intros G.
  assert (EO : forall y, evaluate (fun w => y (g w)) (lp_obj (rename f lp)) == evaluate y (lp_obj lp)).
  { intros y. change (lp_obj (rename f lp)) with (rename_exp f (lp_obj lp)). rewrite evaluate_rename. apply evaluate_ext. intros v Hv. rewrite (G v); [reflexivity|]. unfold lp_vars. rewrite !in_app_iff. auto. }
  assert (EB : forall x, evaluate x (lp_obj (rename f lp)) == evaluate (fun v => x (f v)) (lp_obj lp)) by (intros x; apply evaluate_rename).
  split; intros [[x [Hx Ex]] M]; split.
  - exists (fun v => x (f v)). split; [apply feasible_rename; exact Hx|]. rewrite <- EB. exact Ex.
  - intros y Hy. rewrite <- EO. apply M. apply feasible_unrename; assumption.
  - exists (fun w => x (g w)). split; [apply feasible_unrename; assumption|]. rewrite EO. exact Ex.
  - intros y Hy. rewrite EB. apply M. apply feasible_rename. exact Hy.
Qed.

(** the inverse of the final mapper on the variables of a program *)
Definition inverse (m : varmapper) (vs : list var) (dflt : var) (n : nat) : var :=
  match find (fun v => Nat.eqb (index_of m v) n) vs with Some v => v | None => dflt end.

Lemma index_of_position m v i : position (encode_request v) m = Some i -> index_of m v = i.
Proof. intros H. unfold index_of. rewrite H. reflexivity. Qed.

Lemma index_inj m v w : in_range v -> in_range w -> (exists i, position (encode_request v) m = Some i) -> (exists i, position (encode_request w) m = Some i) ->
  index_of m v = index_of m w -> v = w.
Proof.
  intros V W [i Hi] [j Hj] E. rewrite (index_of_position _ _ _ Hi), (index_of_position _ _ _ Hj) in E. subst j.
  apply position_some in Hi, Hj. rewrite Hi in Hj. injection Hj as Hj. apply encode_inj; assumption.
Qed.

Lemma inverse_correct m vs dflt v : (forall w, In w vs -> in_range w /\ exists i, position (encode_request w) m = Some i) -> In v vs -> inverse m vs dflt (index_of m v) = v.
Proof.
  intros H Hv. unfold inverse. destruct (find _ vs) as [w|] eqn:F.
  - apply find_some in F. destruct F as [F1 F2]. apply Nat.eqb_eq in F2. destruct (H w F1), (H v Hv). eapply index_inj; eassumption.
  - exfalso. apply (find_none _ _ F) in Hv. rewrite Nat.eqb_refl in Hv. discriminate.
Qed.

Lemma optimum_indexed vs lp opt : (forall v, In v (lp_vars lp) -> In v vs) -> (forall v, In v vs -> in_range v) ->
  optimum (indexed (snd (lookups vs [])) lp) opt <-> optimum lp opt.
Proof.
  intros H1 H2. unfold indexed. apply (optimum_rename _ (inverse (snd (lookups vs [])) vs (Var 0 0 0 BLOCKING_DIRECT))).
  intros v Hv. apply inverse_correct; [|auto]. intros w Hw. split; [auto|apply lookups_all; exact Hw].
Qed.

(** * Rounding *)
Lemma lrint_mono q z : inject_Z z <= q -> (z <= lrint q)%Z.
Proof.
  intros H. assert (F : (z <= Qfloor q)%Z) by (rewrite <- (Qfloor_Z z); apply Qfloor_resp_le; exact H).
  unfold lrint. destruct (Qcompare _ _); [destruct (Z.even _)|..]; lia.
Qed.

Lemma lrint_nearest q : nearest q (lrint q).
Proof.
  unfold nearest, lrint. pose proof (Qfloor_le q) as L. pose proof (Qlt_floor q) as U. rewrite inject_Z_plus in U. change (inject_Z 1) with 1 in U.
  set (f := Qfloor q) in *. destruct (Qcompare (q - inject_Z f) (1 # 2)) eqn:C.
  - apply Qeq_alt in C. destruct (Z.even f); [|rewrite inject_Z_plus; change (inject_Z 1) with 1]; lra.
  - apply Qlt_alt in C. lra.
  - apply Qgt_alt in C. rewrite inject_Z_plus. change (inject_Z 1) with 1. lra.
Qed.
