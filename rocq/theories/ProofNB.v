(** The C++ version of Baruah's test: it computes what the Python version computes. *)
From Coq Require Import ZArith QArith Qround List Bool Lia Lqa Wf_nat Permutation Sorted.
From Verif Require Import Base ModelTasks SpecTasks ProofTasks SpecUni SpecQPA SpecGlobal ProofUni ProofEDF ProofGlobal ProofGFB ModelNative ModelGEDF ModelGEDFNative ProofGEDF ProofGEDFNative ProofBAK ModelBAR ProofBAR ProofBARTop ProofQPA ModelLA ProofLAPoints ProofLA.
Import ListNotations.
Open Scope Z_scope.

Definition back (t : ntask) : task := Task (n_wcet t) (n_period t) (n_deadline t).

Definition nb_ok (t : ntask) : Prop := 1 <= n_wcet t /\ n_wcet t <= n_deadline t /\ n_deadline t <= n_period t.

Lemma indexed_map : forall ts : ntaskset, indexed (map back ts) = map (fun p => (fst p, back (snd p))) (indexed ts).
Proof.
  intros ts. unfold indexed. rewrite map_length. generalize 0%nat. induction ts as [|t ts IH]; intros a; [reflexivity|]. cbn. f_equal. apply IH.
Qed.

Lemma nb_dbf_eq : forall t x, nb_ok t -> nb_dbf t x = dbf (back t) x.
Proof.
  intros t x [T1 [T2 T3]]. unfold nb_dbf, dbf, back; cbn [t_deadline t_period t_cost].
  destruct (Z.leb_spec 0 (x - n_deadline t)) as [L|L].
  - destruct (Z.leb_spec x 0); [lia|]. rewrite Z.quot_div_nonneg by lia.
    assert (0 <= (x - n_deadline t) / n_period t) by (apply Z.div_pos; lia). nia.
  - destruct (Z.leb_spec x 0); [reflexivity|].
    assert ((x - n_deadline t) / n_period t <= -1) by (enough ((x - n_deadline t) / n_period t < 0) by lia; apply Z.div_lt_upper_bound; lia). nia.
Qed.

Lemma nb_prime_eq : forall t x, nb_ok t -> 0 <= x -> nb_dbf_prime t x = bar_dbf_carry (back t) x.
Proof.
  intros t x [T1 [T2 T3]] Hx. unfold nb_dbf_prime, bar_dbf_carry, back; cbn [t_period t_cost].
  rewrite Z.quot_div_nonneg, Z.rem_mod_nonneg by lia. reflexivity.
Qed.

Lemma nb_task_eq : forall m ts k tk a, Forall nb_ok ts -> nb_ok tk -> 0 <= a -> nb_task m ts k tk a = bar_offset (map back ts) k (back tk) a m.
Proof.
  intros m ts k tk a Hts [T1 [T2 T3]] Ha. unfold nb_task, bar_offset. rewrite indexed_map, !map_map. cbn [fst snd back t_deadline t_cost].
  assert (E1 : map (fun p => nb_interval1 (Nat.eqb (fst p) k) (snd p) tk a) (indexed ts) = map (fun p => bar_I1 (Nat.eqb (fst p) k) (back (snd p)) (back tk) a) (indexed ts)).
  { apply map_ext_in. intros [i t] Hin. cbn [fst snd]. assert (Ht : nb_ok t) by (rewrite Forall_forall in Hts; apply Hts; unfold indexed in Hin; apply in_combine_r in Hin; assumption).
    unfold nb_interval1, bar_I1. rewrite nb_dbf_eq by assumption. cbn [back t_deadline t_cost]. reflexivity. }
  assert (E2 : map (fun p => nb_interval2 (Nat.eqb (fst p) k) (snd p) tk a - nb_interval1 (Nat.eqb (fst p) k) (snd p) tk a) (indexed ts) =
               map (fun p => bar_I2 (Nat.eqb (fst p) k) (back (snd p)) (back tk) a - bar_I1 (Nat.eqb (fst p) k) (back (snd p)) (back tk) a) (indexed ts)).
  { apply map_ext_in. intros [i t] Hin. cbn [fst snd]. assert (Ht : nb_ok t) by (rewrite Forall_forall in Hts; apply Hts; unfold indexed in Hin; apply in_combine_r in Hin; assumption).
    unfold nb_interval1, nb_interval2, bar_I1, bar_I2. rewrite nb_dbf_eq, nb_prime_eq by (assumption || lia). cbn [back t_deadline t_cost]. reflexivity. }
  rewrite E1, E2. reflexivity.
Qed.

(** ** The bounds *)
Lemma n_util_back : forall t, nb_ok t -> (n_util t == utilization (back t))%Q.
Proof.
  intros t [T1 [T2 T3]]. unfold n_util, frac, utilization, zdivq, back; cbn [t_cost t_period]. reflexivity.
Qed.

Lemma ns_util_back : forall ts, Forall nb_ok ts -> (ns_util ts == ts_utilization (map back ts) None)%Q.
Proof.
  intros ts H. unfold ns_util, ts_utilization. rewrite fold_qsum, map_map, Qplus_0_l. apply qsum_ext. intros t Ht. apply n_util_back. rewrite Forall_forall in H. auto.
Qed.

Lemma F2_len : forall A B (P : A -> B -> Prop) l l', Forall2 P l l' -> length l = length l'.
Proof. induction 1; cbn; congruence. Qed.

Lemma topsum_mono : forall A B (l : list A) (l' : list B) f f' n, Forall2 Qle (map f l) (map f' l') -> (topsum l f n <= topsum l' f' n)%Q.
Proof.
  intros A B l l' f f' n H. destruct (topsum_attained A l f n) as [sel [[S1 [rest S2]] <-]].
  assert (Len : length l = length l') by (apply F2_len in H; rewrite !map_length in H; assumption).
  destruct (Permutation_Forall2 (Permutation_sym S2) H) as [v [V1 V2]].
  apply Forall2_app_inv_l in V2. destruct V2 as [s1 [s2 [V2 [V3 ->]]]].
  eapply Qle_trans; [|apply (topsum_upper B l' f' n s1)].
  - clear - V2. induction V2; cbn; [apply Qle_refl|]. apply Qplus_le_compat; assumption.
  - split; [apply F2_len in V2; rewrite <- Len; congruence|]. exists s2. apply Permutation_sym. assumption.
Qed.

Lemma nb_max_point_ge : forall m ts tk A, Forall nb_ok ts -> 0 <= A -> (ts_utilization (map back ts) None < inject_Z m)%Q ->
  (inject_Z A <= bar_bound (map back ts) m (back tk))%Q -> A <= nb_max_point m ts tk.
Proof.
  intros m ts tk A H HA HU Hb.
  assert (Ex : exists x, nb_max_point m ts tk = Z.quot (Qnum x) (Zpos (Qden x)) /\ (x == bar_bound (map back ts) m (back tk))%Q).
  { eexists. split; [reflexivity|]. unfold bar_bound. cbn [back t_deadline t_cost].
    rewrite (ns_util_back ts H). rewrite fold_qsum. unfold topsum. rewrite !map_map. cbn [back t_cost].
    assert (E : (qsum (map (fun t => inject_Z (n_period t - n_deadline t) * n_util t) ts) ==
      qsum (map (fun x => inject_Z (t_period (back x) - t_deadline (back x)) * utilization (back x)) ts))%Q) by (apply qsum_ext; intros t Ht; rewrite n_util_back by (rewrite Forall_forall in H; auto); reflexivity).
    rewrite E, inject_Z_mult. apply Qmult_comp; [|reflexivity]. ring. }
  destruct Ex as [x [-> Ex]]. rewrite <- Ex in Hb. destruct x as [xn xd]. unfold Qle in Hb. cbn in Hb |- *.
  rewrite Z.mul_1_r in Hb. rewrite Z.quot_div_nonneg by nia. apply Z.div_le_lower_bound; lia.
Qed.

(** ** The test points *)
Definition dpt_of (ts : ntaskset) (tk : ntask) (a : Z) : Prop :=
  0 <= a /\ exists t j, In t ts /\ 0 <= j /\ a = n_deadline t - n_deadline tk + j * n_period t.

Lemma points_ahead_iff : forall ts tk b a, Forall nb_ok ts -> (ahead (p_queue (points_init ts tk b)) a <-> dpt_of ts tk a).
Proof.
  intros ts tk b a H. assert (Hp : Forall (fun t => 0 < n_period t) ts) by (eapply Forall_impl; [|exact H]; intros t [? [? ?]]; lia). split.
  - intros [c [pi [Hin [j [Hj E]]]]]. cbn [points_init p_queue] in Hin. apply in_map_iff in Hin. destruct Hin as [t [Et Ht]]. rewrite Forall_forall in Hp. specialize (Hp t Ht).
    unfold dpt_init in Et. injection Et as <- <-. set (x := n_deadline t - n_deadline tk) in *. destruct (Z.ltb_spec x 0) as [L|L].
    + pose proof (Z.div_mod x (n_period t) ltac:(lia)) as E'. pose proof (Z.mod_pos_bound x (n_period t) Hp).
      split; [nia|]. exists t, (j - x / n_period t). split; [assumption|]. split; [|fold x; lia].
      assert (x / n_period t < 0) by (apply Z.div_lt_upper_bound; lia). lia.
    + split; [nia|]. exists t, j. split; [assumption|]. split; [assumption|]. fold x. lia.
  - intros [Ha [t [j [Ht [Hj ->]]]]]. apply points_init_ahead; assumption.
Qed.

Lemma py_points_iff : forall fuel ts tk max_t l, Forall nb_ok ts -> nb_ok tk ->
  ts_dbf_points fuel (map back ts) max_t (n_deadline tk) = Some l -> forall a, In a l <-> a <= max_t /\ dpt_of ts tk a.
Proof.
  intros fuel ts tk max_t l H [K1 [K2 K3]] Hp a. split.
  - intros Ha. unfold ts_dbf_points in Hp.
    destruct (sequence (map (fun t => dbf_points_of_change fuel t max_t (n_deadline tk)) (map back ts))) as [ls|] eqn:E; [|discriminate].
    cbn in Hp. injection Hp as <-. apply sequence_Forall2 in E.
    assert (Spec : forall t l, 0 < t_period t -> dbf_points_of_change fuel t max_t (n_deadline tk) = Some l ->
      StronglySorted Z.lt l /\ forall x, In x l <-> 0 <= x <= max_t /\ exists k, 0 <= k /\ x = t_deadline t - n_deadline tk + k * t_period t).
    { intros t0 l0 H0 H1. unfold dbf_points_of_change in H1. apply points_from_spec in H1; [assumption|assumption|lia]. }
    assert (Hs : Forall (StronglySorted Z.le) ls).
    { clear - E H Spec. revert ls E. induction H as [|t ts [T1 [T2 T3]] _ IH]; intros ls E; inversion E; subst; constructor; auto.
      apply ssorted_lt_le. eapply Spec; [|eassumption]. cbn. lia. }
    destruct (uniq_spec _ (merge_all_sorted _ Hs)) as [_ M1]. apply M1 in Ha. apply merge_all_in in Ha. clear M1 Hs.
    enough (G : a <= max_t /\ 0 <= a /\ exists t j, In t ts /\ 0 <= j /\ a = n_deadline t - n_deadline tk + j * n_period t) by (unfold dpt_of; tauto).
    destruct Ha as [l0 [Hl0 Ha]]. revert ls E Hl0. induction H as [|t ts [T1 [T2 T3]] _ IH]; intros ls E Hl0; inversion E as [|? ? ? ? E1 E2]; subst; [destruct Hl0|].
    destruct Hl0 as [->|Hl0].
    + apply (Spec (back t) _ ltac:(cbn; lia) E1) in Ha. cbn in Ha. destruct Ha as [Ha [j [Hj Ej]]]. split; [lia|]. split; [lia|]. exists t, j. split; [left; reflexivity|]. split; assumption.
    + destruct (IH _ E2 Hl0) as [G1 [G2 [t' [j [G3 G4]]]]]. split; [assumption|]. split; [assumption|]. exists t', j. split; [right; assumption|assumption].
  - intros [Hm [Ha [t [j [Ht [Hj ->]]]]]].
    apply (ts_dbf_points_in fuel (map back ts) max_t (n_deadline tk) l) with (t := back t); [|lia|exact Hp|apply in_map; assumption|exact Hj|cbn; lia].
    rewrite Forall_map. eapply Forall_impl; [|exact H]. intros t' [? [? ?]]. cbn. lia.
Qed.

Lemma snd_indexed : forall A (l : list A), map snd (indexed l) = l.
Proof. intros A l. unfold indexed. generalize 0%nat. induction l as [|x l IH]; intros b; cbn; [reflexivity|]. rewrite IH. reflexivity. Qed.

(** ** Beyond the bound the condition holds *)
Lemma bar_beyond : forall m ts k tk a, 1 <= m -> Forall nb_ok ts -> nth_error ts k = Some tk -> 0 <= a -> (ts_utilization (map back ts) None < inject_Z m)%Q ->
  (bar_bound (map back ts) m (back tk) <= inject_Z a)%Q -> bar_offset (map back ts) k (back tk) a m = true.
Proof.
  intros m ts k tk a Hm H Hk Ha HU Hb.
  assert (Htk : nb_ok tk) by (rewrite Forall_forall in H; apply H; eapply nth_error_In; eassumption). destruct Htk as [K1 [K2 K3]].
  unfold bar_offset. apply Qle_bool_iff. cbn [back t_deadline t_cost].
  set (L := a + n_deadline tk) in *. assert (HL : 1 <= L) by (unfold L; lia).
  unfold bar_bound in Hb. cbn [back t_deadline t_cost] in Hb. set (M := inject_Z m) in *. set (U := ts_utilization (map back ts) None) in *.
  set (cs := topsum (map back ts) (fun t => inject_Z (t_cost t)) (Z.to_nat (m - 1))) in *.
  set (y := qsum (map (fun t => (inject_Z (t_period t - t_deadline t) * utilization t)%Q) (map back ts))) in *.
  assert (Hmu : (0 < M - U)%Q) by lra.
  assert (Hb2 : (cs - inject_Z (n_deadline tk) * (M - U) + y + M * inject_Z (n_wcet tk) <= inject_Z a * (M - U))%Q).
  { apply (Qmult_le_r _ _ _ Hmu) in Hb. eapply Qle_trans; [|exact Hb]. apply Qle_lteq. right. field. lra. }
  assert (S1 : (inject_Z (zsum (map (fun p => bar_I1 (Nat.eqb (fst p) k) (snd p) (back tk) a) (indexed (map back ts)))) <= U * inject_Z L + y)%Q).
  { eapply Qle_trans with (inject_Z (zsum (map (fun p => dbf (snd p) L) (indexed (map back ts))))).
    - apply zq_le. unfold zsum. generalize (indexed (map back ts)). induction l as [|[i t] l IH]; cbn [map fold_right]; [lia|].
      cbn [fst snd]. assert (bar_I1 (Nat.eqb i k) t (back tk) a <= dbf t L); [|lia]. unfold bar_I1. cbn [back t_deadline t_cost]. fold L. destruct (Nat.eqb i k); lia.
    - rewrite <- (map_map snd (fun t => dbf t L)). rewrite snd_indexed.
      unfold U, y, ts_utilization. clear - H HL. induction H as [|t ts [T1 [T2 T3]] _ IH]; [cbn [map zsum fold_right qsum]; change (inject_Z 0) with 0%Q; lra|]. cbn [map zsum fold_right qsum]. fold (zsum (map (fun t0 => dbf t0 L) (map back ts))).
      change (fold_right Qplus 0%Q) with qsum. rewrite inject_Z_plus.
      assert (G : (inject_Z (dbf (back t) L) <= utilization (back t) * inject_Z L + inject_Z (t_period (back t) - t_deadline (back t)) * utilization (back t))%Q); [|lra].
      rewrite <- nb_dbf_eq by (repeat split; assumption). cbn [back t_period t_deadline]. set (u := utilization (back t)).
      assert (Eu : (u * inject_Z (n_period t) == inject_Z (n_wcet t))%Q) by (unfold u, utilization; cbn [back t_cost t_period]; apply zdivq_scale; lia).
      assert (Nu : (0 <= u)%Q) by (unfold u, utilization; apply zdivq_nonneg; cbn; lia).
      unfold nb_dbf. destruct (Z.leb_spec 0 (L - n_deadline t)) as [Le|Le].
      + rewrite Z.quot_div_nonneg by lia. set (N := (L - n_deadline t) / n_period t + 1).
        assert (W2 : N * n_period t <= L + (n_period t - n_deadline t)).
        { unfold N. pose proof (Z.mul_div_le (L - n_deadline t) (n_period t) ltac:(lia)). lia. }
        apply zq_le in W2. rewrite inject_Z_mult, inject_Z_plus in W2. rewrite inject_Z_mult.
        assert (W3 : (inject_Z N * inject_Z (n_wcet t) <= (inject_Z L + inject_Z (n_period t - n_deadline t)) * u)%Q).
        { rewrite <- Eu. setoid_replace (inject_Z N * (u * inject_Z (n_period t)))%Q with (inject_Z N * inject_Z (n_period t) * u)%Q by ring.
          apply Qmult_le_compat_r; assumption. }
        lra.
      + change (inject_Z 0) with 0%Q. assert (P1 : (0 <= inject_Z (n_period t - n_deadline t))%Q) by (change 0%Q with (inject_Z 0); apply zq_le; lia).
        assert (P2 : (1 <= inject_Z L)%Q) by (change 1%Q with (inject_Z 1); apply zq_le; lia).
        pose proof (Qmult_le_0_compat _ _ P1 Nu). assert (0 <= u * inject_Z L)%Q by (apply Qmult_le_0_compat; lra). lra. }
  assert (S2 : (topsum (map (fun p => (bar_I2 (Nat.eqb (fst p) k) (snd p) (back tk) a - bar_I1 (Nat.eqb (fst p) k) (snd p) (back tk) a)%Z) (indexed (map back ts))) inject_Z (Z.to_nat (m - 1)) <= cs)%Q).
  { unfold cs. apply topsum_mono. rewrite indexed_map, !map_map. cbn [fst snd].
    assert (G : forall n0 l, Forall nb_ok l -> Forall2 Qle (map (fun x => inject_Z (bar_I2 (Nat.eqb (fst x) k) (back (snd x)) (back tk) a - bar_I1 (Nat.eqb (fst x) k) (back (snd x)) (back tk) a)) (combine (seq n0 (length l)) l))
      (map (fun x => inject_Z (t_cost (back x))) l)).
    { intros n0 l Hl. revert n0. induction Hl as [|t l [T1 [T2 T3]] _ IH]; intros n0; cbn; constructor; [|apply IH].
      apply zq_le. assert (X : bar_dbf_carry (back t) L - dbf (back t) L <= n_wcet t).
      { rewrite <- nb_dbf_eq by (repeat split; assumption). unfold bar_dbf_carry, nb_dbf; cbn [back t_period t_cost].
        pose proof (Z.div_mod L (n_period t) ltac:(lia)) as E. pose proof (Z.mod_pos_bound L (n_period t) ltac:(lia)) as B.
        set (q := L / n_period t) in *. destruct (Z.leb_spec 0 (L - n_deadline t)) as [Le|Le].
        - rewrite Z.quot_div_nonneg by lia. assert (q - 1 <= (L - n_deadline t) / n_period t) by (apply Z.div_le_lower_bound; lia). nia.
        - assert (q = 0) by nia. nia. }
      unfold bar_I1, bar_I2. cbn [back t_deadline t_cost]. fold L. destruct (Nat.eqb n0 k); lia. }
    unfold indexed. apply G. assumption. }
  assert (EL : (inject_Z L == inject_Z a + inject_Z (n_deadline tk))%Q) by (unfold L; rewrite inject_Z_plus; reflexivity).
  rewrite inject_Z_mult, inject_sub. fold M. rewrite EL in *. lra.
Qed.

(** ** The loops of the C++ version *)
Definition nbe : Type := (nat * ntask * points)%type.
Definition e_ok (e : nbe) : Prop := pok (snd e).
(** one call of get_next on an element *)
Definition e_step (m : Z) (ts : ntaskset) (e e' : nbe) (o : option Z) : Prop :=
  fst e' = fst e /\ get_next (snd e) = Some (o, snd e') /\ match o with Some a => nb_task m ts (fst (fst e)) (snd (fst e)) a = true | None => True end.

Lemma nb_round_spec : forall m ts l b, Forall e_ok l -> exists l' sch b', nb_round m ts l b = Some (l', sch, b') /\
  (if sch then Forall2 (fun e e' => exists o, e_step m ts e e' o /\ (b' = false -> o = None)) l l' /\
     (b' = true -> b = true \/ Exists (fun ee => exists a, e_step m ts (fst ee) (snd ee) (Some a)) (combine l l')) /\ (b = true -> b' = true)
   else b' = true /\ exists e a, In e l /\ ahead (p_queue (snd e)) a /\ a <= p_bound (snd e) /\ nb_task m ts (fst (fst e)) (snd (fst e)) a = false).
Proof.
  intros m ts l. induction l as [|[[k tk] p] l IH]; intros b Hl.
  - exists [], true, b. split; [reflexivity|]. split; [constructor|]. split; auto.
  - inversion Hl as [|? ? Hp Hl']; subst. unfold e_ok in Hp; cbn [snd] in Hp. cbn [nb_round].
    destruct (get_next_spec p Hp) as [r [p' [E [K1 [K2 [K0 K3]]]]]]. rewrite E. destruct r as [a|].
    + destruct (nb_task m ts k tk a) eqn:Ea.
      * destruct (IH true Hl') as [l' [sch [b' [E' S]]]]. rewrite E'. cbn [option_map fst snd]. exists ((k, tk, p') :: l'), sch, b'. split; [reflexivity|].
        destruct sch.
        -- destruct S as [S1 [S2 S3]]. assert (St : e_step m ts (k, tk, p) (k, tk, p') (Some a)) by (split; [reflexivity|]; split; [exact E|exact Ea]). split.
           { constructor; [|assumption]. exists (Some a). split; [assumption|]. intros F. specialize (S3 eq_refl). congruence. }
           split; [|auto]. intros _. right. cbn [combine]. apply Exists_cons_hd. exists a. assumption.
        -- destruct S as [S1 [e [a' [G1 G2]]]]. split; [assumption|]. exists e, a'. split; [right; assumption|assumption].
      * exists ((k, tk, p') :: l), false, true. split; [reflexivity|]. split; [reflexivity|]. exists (k, tk, p), a. split; [left; reflexivity|]. cbn [fst snd]. destruct K3 as [K4 [K5 [K6 [K8 K7]]]]. tauto.
    + destruct (IH b Hl') as [l' [sch [b' [E' S]]]]. rewrite E'. cbn [option_map fst snd]. exists ((k, tk, p') :: l'), sch, b'. split; [reflexivity|].
      destruct sch.
      * destruct S as [S1 [S2 S3]]. split.
        { constructor; [|assumption]. exists None. split; [|reflexivity]. split; [reflexivity|]. split; [exact E|exact I]. }
        split; [|assumption]. intros B. destruct (S2 B) as [?|X]; [left; assumption|right]. cbn [combine]. apply Exists_cons_tl. assumption.
      * destruct S as [S1 [e [a' [G1 G2]]]]. split; [assumption|]. exists e, a'. split; [right; assumption|assumption].
Qed.

Definition e_done (m : Z) (ts : ntaskset) (e : nbe) (a : Z) : Prop := nb_task m ts (fst (fst e)) (snd (fst e)) a = true.

Lemma nb_loop_true : forall fuel slow m ts iter l, Forall e_ok l ->
  (forall e, In e l -> forall a, ahead (p_queue (snd e)) a -> a = p_last (snd e) -> a <= p_bound (snd e) -> e_done m ts e a) ->
  nb_loop fuel slow m ts iter l = Some true -> forall e, In e l -> forall a, ahead (p_queue (snd e)) a -> a <= p_bound (snd e) -> e_done m ts e a.
Proof.
  induction fuel as [|f IH]; intros slow m ts iter l Hl Hlast H e He a Ha Hb; [discriminate|]. cbn [nb_loop] in H.
  destruct (_ && slow _); [discriminate|]. destruct (nb_round_spec m ts l false Hl) as [l' [sch [b' [E S]]]]. rewrite E in H.
  destruct sch; [|destruct S as [-> _]; discriminate]. destruct S as [S1 [S2 S3]].
  assert (Ge : exists e' o, In e' l' /\ e_step m ts e e' o /\ (b' = false -> o = None)).
  { clear - S1 He. induction S1 as [|x y l l' [o [X1 X2]] _ IH]; [destruct He|]. destruct He as [->|He]; [exists y, o; split; [left; reflexivity|tauto]|].
    destruct (IH He) as [e' [o' [G1 G2]]]. exists e', o'. split; [right; assumption|assumption]. }
  destruct Ge as [e' [o [He' [[Ef [Eg Et]] Eb]]]].
  assert (Hpe : pok (snd e)) by (rewrite Forall_forall in Hl; apply Hl; assumption).
  destruct (get_next_spec (snd e) Hpe) as [r [p' [Er [K1 [K2 [K0 K3]]]]]]. rewrite Er in Eg. injection Eg as -> E4.
  destruct b'; cbn [andb] in H.
  - destruct o as [t|].
    + destruct K3 as [K4 [K5 [K6 [K8 K7]]]]. destruct (K7 a Ha) as [Ea|[Ea|Ha']]; [apply (Hlast e He a Ha Ea Hb)|subst a; exact Et|].
      assert (Inv1 : Forall e_ok l').
      { apply Forall_forall. intros x Hx. clear - S1 Hx Hl. induction S1 as [|x0 y l l' [o [[X1 [X2 X3]] _]] _ IH]; [destruct Hx|]. inversion Hl; subst. destruct Hx as [->|Hx]; [|auto].
        destruct (get_next_spec (snd x0)) as [r [p' [Er [K1 _]]]]; [assumption|]. rewrite Er in X2. injection X2 as _ E4. unfold e_ok. rewrite <- E4. assumption. }
      assert (Inv2 : forall e, In e l' -> forall a, ahead (p_queue (snd e)) a -> a = p_last (snd e) -> a <= p_bound (snd e) -> e_done m ts e a).
      { intros x Hx a0 A1 A2 A3.
        assert (Gx : exists x0 ox, In x0 l /\ e_step m ts x0 x ox).
        { clear - S1 Hx. induction S1 as [|x0 y l l' [o [X1 _]] _ IH]; [destruct Hx|]. destruct Hx as [->|Hx]; [exists x0, o; split; [left; reflexivity|assumption]|].
          destruct (IH Hx) as [x1 [ox [G1 G2]]]. exists x1, ox. split; [right; assumption|assumption]. }
        destruct Gx as [x0 [ox [Hx0 [Xf [Xg Xt]]]]].
        assert (Hpx : pok (snd x0)) by (rewrite Forall_forall in Hl; apply Hl; assumption).
        destruct (get_next_spec (snd x0) Hpx) as [rx [px [Rx [M1 [M2 [M0 M3]]]]]]. rewrite Rx in Xg. injection Xg as -> X4. rewrite <- X4 in A1, A2, A3. unfold e_done. rewrite Xf.
        destruct ox as [t'|].
        + destruct M3 as [M4 [M5 [M6 _]]]. rewrite M6 in A2. subst a0. exact Xt.
        + destruct M3 as [M4 M5]. rewrite M2 in A3. lia. }
      assert (R : e_done m ts e' a).
      { apply (IH _ _ _ _ _ Inv1 Inv2 H e' He' a); [rewrite <- E4; assumption|rewrite <- E4, K2; assumption]. }
      unfold e_done in *. rewrite Ef in R. exact R.
    + destruct K3 as [K4 _]. destruct (K4 a Ha) as [Ea|Ea]; [apply (Hlast e He a Ha Ea Hb)|lia].
  - rewrite (Eb eq_refl) in K3. destruct K3 as [K4 _]. destruct (K4 a Ha) as [Ea|Ea]; [apply (Hlast e He a Ha Ea Hb)|lia].
Qed.

(** the state after a round with success *)
Lemma round_ok : forall m ts l l' b', Forall e_ok l -> Forall2 (fun e e' => exists o, e_step m ts e e' o /\ (b' = false -> o = None)) l l' ->
  Forall e_ok l' /\ (forall x, In x l' -> exists x0, In x0 l /\ fst x = fst x0 /\ p_bound (snd x) = p_bound (snd x0) /\ forall a, ahead (p_queue (snd x)) a -> ahead (p_queue (snd x0)) a).
Proof.
  intros m ts l l' b' Hl S1. induction S1 as [|x0 y l l' [o [[X1 [X2 X3]] _]] _ IH]; [split; [constructor|intros x []]|]. inversion Hl; subst.
  destruct (get_next_spec (snd x0)) as [r [p' [Er [K1 [K2 [K0 _]]]]]]; [assumption|]. rewrite Er in X2. injection X2 as _ E4. destruct (IH H2) as [I1 I2]. split.
  - constructor; [unfold e_ok; rewrite <- E4; assumption|assumption].
  - intros x [<-|Hx]; [exists x0; split; [left; reflexivity|]; rewrite <- E4; tauto|]. destruct (I2 x Hx) as [z [Z1 Z2]]. exists z. split; [right; assumption|assumption].
Qed.

Lemma nb_loop_false : forall fuel m ts iter l, Forall e_ok l -> nb_loop fuel (fun _ => false) m ts iter l = Some false ->
  exists e a, In e l /\ ahead (p_queue (snd e)) a /\ a <= p_bound (snd e) /\ nb_task m ts (fst (fst e)) (snd (fst e)) a = false.
Proof.
  induction fuel as [|f IH]; intros m ts iter l Hl H; [discriminate|]. cbn [nb_loop] in H. rewrite andb_false_r in H.
  destruct (nb_round_spec m ts l false Hl) as [l' [sch [b' [E S]]]]. rewrite E in H.
  destruct sch; [|destruct S as [_ S]; exact S]. destruct S as [S1 _]. rewrite andb_true_r in H. destruct b'; [|discriminate].
  destruct (round_ok _ _ _ _ _ Hl S1) as [R1 R2]. destruct (IH _ _ _ _ R1 H) as [e [a [E1 [E2 [E3 E4]]]]]. destruct (R2 e E1) as [x0 [X1 [X2 [X3 X4]]]].
  exists x0, a. split; [assumption|]. split; [apply X4; assumption|]. split; [rewrite <- X3; assumption|]. rewrite <- X2. assumption.
Qed.

Definition e_left (e : nbe) : nat := Z.to_nat (p_bound (snd e) - p_last (snd e)).
Definition all_left (l : list nbe) : nat := list_sum (map e_left l).

Lemma step_left : forall m ts e e' o, e_ok e -> e_step m ts e e' o -> (e_left e' <= e_left e)%nat /\ (forall a, o = Some a -> (e_left e' < e_left e)%nat).
Proof.
  intros m ts e e' o He [X1 [X2 X3]]. destruct (get_next_spec (snd e) He) as [r [p' [Er [K1 [K2 [K0 K3]]]]]]. rewrite Er in X2. injection X2 as -> E4.
  unfold e_left. rewrite <- E4, K2. destruct o as [a|].
  - destruct K3 as [K4 [K5 [K6 _]]]. rewrite K6. split; [lia|]. intros; lia.
  - destruct K3 as [_ K3]. split; [lia|discriminate].
Qed.

Lemma nb_loop_fuel : forall fuel slow m ts iter l, Forall e_ok l -> (all_left l < fuel)%nat -> nb_loop fuel slow m ts iter l <> None.
Proof.
  induction fuel as [|f IH]; intros slow m ts iter l Hl Hf; [lia|]. cbn [nb_loop]. destruct (_ && slow _); [discriminate|].
  destruct (nb_round_spec m ts l false Hl) as [l' [sch [b' [E S]]]]. rewrite E. destruct sch; [|rewrite andb_false_r; discriminate]. rewrite andb_true_r. destruct b'; [|discriminate].
  destruct S as [S1 [S2 _]]. destruct (round_ok _ _ _ _ _ Hl S1) as [R1 _]. apply IH; [assumption|].
  enough (all_left l' < all_left l)%nat by lia. destruct (S2 eq_refl) as [?|Hx]; [discriminate|]. clear - Hl S1 Hx. unfold all_left.
  assert (G : (list_sum (map e_left l') <= list_sum (map e_left l))%nat /\ (Exists (fun ee => exists a, e_step m ts (fst ee) (snd ee) (Some a)) (combine l l') -> list_sum (map e_left l') < list_sum (map e_left l))%nat).
  { clear Hx. induction S1 as [|x y l l' [o [X _]] _ IH]; [split; [cbn; lia|]; intros Ex; inversion Ex|]. inversion Hl; subst. destruct (IH H2) as [I1 I2]. destruct (step_left _ _ _ _ _ H1 X) as [L1 L2].
    cbn [map list_sum fold_right combine]. fold (list_sum (map e_left l)). fold (list_sum (map e_left l')). split; [lia|]. intros Ex. apply Exists_cons in Ex. destruct Ex as [[a Ea]|Ex].
    - cbn [fst snd] in Ea. destruct (step_left _ _ _ _ _ H1 Ea) as [_ L3]. specialize (L3 a eq_refl). lia.
    - specialize (I2 Ex). lia. }
  apply G. assumption.
Qed.

(** ** Both versions decide the same condition *)
Definition bar_cond (m : Z) (ts : ntaskset) : Prop := (ts_utilization (map back ts) None < inject_Z m)%Q /\
  forall k tk a, nth_error ts k = Some tk -> dpt_of ts tk a -> bar_offset (map back ts) k (back tk) a m = true.

Lemma bar_test_cond : forall fuel m ts b, 1 <= m -> Forall nb_ok ts -> bar_test fuel m (map back ts) = Some b -> (b = true <-> bar_cond m ts).
Proof.
  intros fuel m ts b Hm H E. unfold bar_test in E.
  assert (Hcs : forallb constrained_deadline (map back ts) = true).
  { apply forallb_forall. intros x Hx. apply in_map_iff in Hx. destruct Hx as [t [<- Ht]]. rewrite Forall_forall in H. destruct (H t Ht) as [? [? ?]]. unfold constrained_deadline. cbn. apply Z.leb_le. lia. }
  rewrite Hcs in E. cbn [negb] in E. rewrite orb_false_r in E.
  destruct (Qle_bool (inject_Z m) (ts_utilization (map back ts) None)) eqn:EU.
  - injection E as <-. split; [discriminate|]. intros [HU _]. apply Qle_bool_iff in EU. lra.
  - assert (HU : (ts_utilization (map back ts) None < inject_Z m)%Q) by (apply Qnot_le_lt; intros X; apply Qle_bool_iff in X; congruence).
    split.
    + intros ->. split; [assumption|]. intros k tk a Hk Ha.
      assert (Hin : In (k, back tk) (indexed (map back ts))) by (apply indexed_in; rewrite nth_error_map, Hk; reflexivity).
      assert (Htk : nb_ok tk) by (rewrite Forall_forall in H; apply H; eapply nth_error_In; eassumption).
      destruct (bar_loop_true _ _ _ _ E _ _ Hin) as [pts [Ep Hpts]].
      destruct (Z.le_gt_cases a (Qfloor (bar_bound (map back ts) m (back tk)))) as [Le|Gt].
      * apply Hpts. apply (py_points_iff fuel ts tk _ pts H Htk Ep). split; assumption.
      * apply bar_beyond; try assumption; [destruct Ha; assumption|]. apply Qlt_le_weak. eapply Qlt_le_trans; [apply Qlt_floor|]. apply zq_le. lia.
    + intros [_ C]. 
      assert (G : forall l, (forall k tk, In (k, tk) l -> exists t, tk = back t /\ nth_error ts k = Some t) -> forall b, bar_loop fuel m (map back ts) l = Some b -> b = true).
      { induction l as [|[k tk] l IH]; intros Hin b0 E0; cbn [bar_loop] in E0; [congruence|]. destruct (Hin k tk (or_introl eq_refl)) as [t [-> Hk]].
        assert (Htk : nb_ok t) by (rewrite Forall_forall in H; apply H; eapply nth_error_In; eassumption).
        change (t_deadline (back t)) with (n_deadline t) in E0.
        destruct (ts_dbf_points fuel (map back ts) _ _) as [pts|] eqn:Ep; [|discriminate].
        assert (F : forallb (fun a_k => bar_offset (map back ts) k (back t) a_k m) pts = true).
        { apply forallb_forall. intros a Ha. apply (py_points_iff fuel ts t _ pts H Htk Ep) in Ha. apply C; tauto. }
        rewrite F in E0. apply IH; [|assumption]. intros; apply Hin; right; assumption. }
      refine (G _ _ b E). intros k tk Hin. apply indexed_in in Hin. rewrite nth_error_map in Hin. destruct (nth_error ts k) as [t|]; [|discriminate]. injection Hin as <-. exists t. split; reflexivity.
Qed.

Lemma nb_cond_true : forall fuel slow m ts, 1 <= m -> Forall nb_ok ts -> n_baruah fuel slow m ts false = Some true -> bar_cond m ts.
Proof.
  intros fuel slow m ts Hm H E. unfold n_baruah in E. cbn [andb] in E. destruct (Qle_bool (ns_util ts * (-1) + inject_Z m) 0) eqn:EU; [discriminate|].
  assert (HU : (ts_utilization (map back ts) None < inject_Z m)%Q).
  { rewrite <- ns_util_back by assumption. assert (~ (ns_util ts * (-1) + inject_Z m <= 0)%Q) by (intros X; apply Qle_bool_iff in X; congruence). lra. }
  split; [assumption|]. intros k tk a Hk Ha.
  assert (Htk : nb_ok tk) by (rewrite Forall_forall in H; apply H; eapply nth_error_In; eassumption).
  destruct (Qlt_le_dec (bar_bound (map back ts) m (back tk)) (inject_Z a)) as [Gt|Le].
  { apply bar_beyond; try assumption; [destruct Ha; assumption|lra]. }
  assert (Hp : Forall (fun t => 0 < n_period t) ts) by (eapply Forall_impl; [|exact H]; intros t [? [? ?]]; lia).
  assert (Hne : ts <> []) by (intros ->; destruct k; discriminate).
  rewrite <- nb_task_eq; [|assumption|assumption|destruct Ha; assumption].
  refine (nb_loop_true _ _ _ _ _ _ _ _ E ((k, tk), points_init ts tk (nb_max_point m ts tk)) _ a _ _).
  - apply Forall_forall. intros x Hx. apply in_map_iff in Hx. destruct Hx as [p [<- _]]. apply points_init_ok; assumption.
  - intros e He a0 A1 A2 A3. exfalso. apply in_map_iff in He. destruct He as [p [<- _]]. cbn [snd] in A1, A2. apply points_ahead_iff in A1; [|assumption]. cbn in A2. destruct A1. lia.
  - apply in_map_iff. exists (k, tk). split; [reflexivity|]. apply indexed_in. assumption.
  - cbn [snd]. apply points_ahead_iff; assumption.
  - cbn [snd points_init p_bound]. apply nb_max_point_ge; try assumption. destruct Ha; assumption.
Qed.

Lemma nb_cond_false : forall fuel m ts, Forall nb_ok ts -> n_baruah fuel (fun _ => false) m ts false = Some false -> ~ bar_cond m ts.
Proof.
  intros fuel m ts H E [HU C]. unfold n_baruah in E. cbn [andb] in E.
  destruct (Qle_bool (ns_util ts * (-1) + inject_Z m) 0) eqn:EU; [apply Qle_bool_iff in EU; rewrite ns_util_back in EU by assumption; lra|].
  assert (Hp : Forall (fun t => 0 < n_period t) ts) by (eapply Forall_impl; [|exact H]; intros t [? [? ?]]; lia).
  destruct ts as [|t0 ts0]; [destruct fuel; discriminate|]. set (ts := t0 :: ts0) in *.
  apply nb_loop_false in E.
  - destruct E as [e [a [E1 [E2 [E3 E4]]]]]. apply in_map_iff in E1. destruct E1 as [[k tk] [<- Hin]]. cbn [fst snd] in *.
    apply indexed_in in Hin. apply points_ahead_iff in E2; [|assumption].
    assert (Htk : nb_ok tk) by (rewrite Forall_forall in H; apply H; eapply nth_error_In; eassumption).
    rewrite nb_task_eq in E4; [|assumption|assumption|destruct E2; assumption]. rewrite (C k tk a Hin E2) in E4. discriminate.
  - apply Forall_forall. intros x Hx. apply in_map_iff in Hx. destruct Hx as [p [<- _]]. apply points_init_ok; [discriminate|assumption].
Qed.

Lemma nb_fuel : forall m ts, Forall nb_ok ts -> exists N, forall fuel slow, (N <= fuel)%nat -> n_baruah fuel slow m ts false <> None.
Proof.
  intros m ts H. assert (Hp : Forall (fun t => 0 < n_period t) ts) by (eapply Forall_impl; [|exact H]; intros t [? [? ?]]; lia).
  set (l := map (fun p => (p, points_init ts (snd p) (nb_max_point m ts (snd p)))) (indexed ts)).
  exists (S (all_left l)). intros fuel slow Hf. unfold n_baruah. cbn [andb]. destruct (Qle_bool _ 0); [discriminate|].
  apply nb_loop_fuel; [|fold l; lia]. apply Forall_forall. intros x Hx. apply in_map_iff in Hx. destruct Hx as [p [<- Hin]]. apply points_init_ok; [|assumption].
  intros ->. destruct Hin.
Qed.
