(** Proofs about the nested critical sections of the native code. *)
From Coq Require Import ZArith List Bool Arith Relations Lia Sorted Permutation.
From Verif Require Import ModelResources SpecResources ProofResources ProofSections ModelNestedCS.
Import ListNotations.
Local Open Scope nat_scope.

(** ** paths *)
Lemma path_nonempty held f p c : path_to held f p c -> p <> [].
Proof. intros P. destruct P; discriminate. Qed.

Lemma path_fun held f p c : path_to held f p c -> forall held' c', path_to held' f p c' -> held = held' /\ c = c'.
Proof.
  intros P. induction P as [f i c H|held f i r l n p x H P IH]; intros held' c' Q.
  - inversion Q as [? ? ? H'|? ? ? ? ? ? ? ? H' P']; subst.
    + rewrite H in H'. injection H' as <-. auto.
    + apply path_nonempty in P'. congruence.
  - inversion Q as [? ? ? H'|? ? ? r' l' n' ? ? H' P']; subst.
    + apply path_nonempty in P. congruence.
    + rewrite H in H'. injection H' as <- <- <-. destruct (IH _ _ P') as [<- <-]. auto.
Qed.

Lemma path_parent held f p c : path_to held f p c -> 1 < length p -> exists held' c',
  path_to held' f (removelast p) c' /\ held = held' ++ [cs_res c'] /\ child c c'.
Proof.
  intros P. induction P as [f i c H|held f i r l n p x H P IH]; cbn [length]; intros L; [lia|].
  destruct (le_lt_dec (length p) 1) as [L1|L1].
  - inversion P as [? j ? H' |? ? ? ? ? ? p' ? H' P']; subst.
    + exists [], (CS r l n). cbn. split; [constructor; exact H|]. split; [reflexivity|]. constructor. eapply nth_error_In, H'.
    + apply path_nonempty in P'. destruct p'; [congruence|]. cbn in L1. lia.
  - destruct (IH L1) as [held' [c' [A [B C]]]]. exists (r :: held'), c'. split; [|split; [|exact C]].
    + rewrite removelast_cons by (intros ->; cbn in L1; lia). econstructor; eassumption.
    + cbn. rewrite B. reflexivity.
Qed.

Lemma path_child held f p c : path_to held f p c -> forall j x, nth_error (cs_nested c) j = Some x ->
  path_to (held ++ [cs_res c]) f (p ++ [j]) x.
Proof.
  intros P. induction P as [f i c H|held f i r l n p x H P IH]; intros j y Hy.
  - destruct c as [r l n]. cbn in *. econstructor; [exact H|]. constructor. exact Hy.
  - cbn. econstructor; [exact H|]. apply IH, Hy.
Qed.

Lemma within_path c o : within c o -> forall f i, nth_error f i = Some o -> exists held p, path_to held f p c.
Proof.
  intros W. induction W as [c|x y c W IH C]; intros f i H.
  - exists [], [i]. constructor. exact H.
  - destruct C as [r l n y Hy]. apply In_nth_error in Hy. destruct Hy as [j Hj].
    destruct (IH n j Hj) as [held [p P]]. exists (r :: held), (i :: p). econstructor; eassumption.
Qed.

Lemma occurs_path c f : occurs c f -> exists held p, path_to held f p c.
Proof. intros [o [Ho W]]. apply In_nth_error in Ho. destruct Ho as [i Hi]. exact (within_path c o W f i Hi). Qed.

Lemma sorted_nodup ps : StronglySorted before ps -> NoDup ps.
Proof.
  intros S. induction S as [|p ps S IH F]; constructor; [|exact IH].
  intros H. rewrite Forall_forall in F. exact (before_irrefl p (F p H)).
Qed.

(** ** flattened forests are accepted *)
Definition to_ncs (e : nat * Z * Z) : ncs := NCS (fst (fst e)) (snd (fst e)) (snd e).

Lemma add_flat_spec l : forall t, (forall k r n o, nth_error l k = Some (r, n, o) -> o = (-1)%Z \/ (0 <= o < Z.of_nat (length t + k))%Z) ->
  add_flat t l = Some (t ++ map to_ncs l).
Proof.
  induction l as [|[[r n] o] l IH]; intros t H; cbn [add_flat map].
  - rewrite app_nil_r. reflexivity.
  - unfold ncs_add. replace (Z.eqb o (-1) || (Z.leb 0 o && Z.ltb o (Z.of_nat (length t)))) with true.
    + rewrite IH.
      * rewrite <- app_assoc. reflexivity.
      * intros k r' n' o' Hk. rewrite app_length. cbn [length]. destruct (H (S k) r' n' o' Hk) as [E|E]; [left; exact E|right].
        replace (length t + 1 + k) with (length t + S k) by lia. exact E.
    + symmetry. apply orb_true_iff. destruct (H 0 r n o eq_refl) as [E|E]; [left; apply Z.eqb_eq, E|right].
      apply andb_true_iff. rewrite Z.leb_le, Z.ltb_lt. lia.
Qed.

(** the enumeration of the positions of a forest *)
Definition enumerates (f : list csec) (ps : list (list nat)) : Prop :=
  StronglySorted before ps /\ forall p, In p ps <-> exists held c, path_to held f p c.

(** the facts about one task that all lemmas use *)
Lemma model_of_forest f : exists t ps, add_flat [] (all_flat f) = Some t /\ enumerates f ps /\ length ps = length t /\
  (forall k p, nth_error ps k = Some p -> exists held c s, path_to held f p c /\ nth_error t k = Some s /\
     n_res s = cs_res c /\ n_len s = cs_len c /\
     ((length p = 1 /\ n_outer s = (-1)%Z) \/
      (1 < length p /\ exists j, j < k /\ nth_error ps j = Some (removelast p) /\ n_outer s = Z.of_nat j))).
Proof.
  destruct (iteration_spec f) as [ps [L [S [P [LF F]]]]].
  assert (A : add_flat [] (all_flat f) = Some (map to_ncs (all_flat f))).
  { rewrite (add_flat_spec (all_flat f) []); [reflexivity|]. intros k r n o Hk.
    destruct (F k r n o Hk) as [c [p [_ [_ [_ [_ [[_ E]|[_ [j [Hj [_ E]]]]]]]]]]]; [left; exact E|right]. cbn [length plus]. lia. }
  exists (map to_ncs (all_flat f)), ps. split; [exact A|]. split; [split; [exact S|]|split].
  - intros p. split.
    + intros H. apply In_nth_error in H. destruct H as [k Hk].
      assert (Hl : k < length (cs_all f)) by (rewrite <- L; apply nth_error_Some; congruence).
      destruct (nth_error (cs_all f) k) as [c|] eqn:Hc; [|apply nth_error_None in Hc; lia].
      destruct (proj2 (P p c)) as [held Hp]; [exists k; auto|]. exists held, c. exact Hp.
    + intros [held [c Hp]]. destruct (proj1 (P p c)) as [k [Hk _]]; [exists held; exact Hp|]. eapply nth_error_In, Hk.
  - rewrite map_length, LF. exact L.
  - intros k p Hk.
    assert (Hl : k < length (all_flat f)) by (rewrite LF, <- L; apply nth_error_Some; congruence).
    destruct (nth_error (all_flat f) k) as [[[r n] o]|] eqn:He; [|apply nth_error_None in He; lia].
    destruct (F k r n o He) as [c [p' [Hc [Hp' [-> [-> Ho]]]]]]. rewrite Hk in Hp'. injection Hp' as <-.
    destruct (proj2 (P p c)) as [held Hp]; [exists k; auto|].
    exists held, c, (to_ncs (cs_res c, cs_len c, o)). split; [exact Hp|]. split; [apply map_nth_error; exact He|]. split; [reflexivity|]. split; [reflexivity|]. exact Ho.
Qed.

Lemma cs_at_nat t k : cs_at t (Z.of_nat k) = nth_error t k.
Proof. unfold cs_at. destruct (Z.ltb_spec (Z.of_nat k) 0); [lia|]. rewrite Nat2Z.id. reflexivity. Qed.

Section Task.
  Variable f : list csec.
  Variable t : ncs_task.
  Variable ps : list (list nat).
  Hypothesis Enum : enumerates f ps.
  Hypothesis Len : length ps = length t.
  Hypothesis At : forall k p, nth_error ps k = Some p -> exists held c s, path_to held f p c /\ nth_error t k = Some s /\
     n_res s = cs_res c /\ n_len s = cs_len c /\
     ((length p = 1 /\ n_outer s = (-1)%Z) \/
      (1 < length p /\ exists j, j < k /\ nth_error ps j = Some (removelast p) /\ n_outer s = Z.of_nat j)).

  Lemma at_index k p held c : nth_error ps k = Some p -> path_to held f p c -> exists s, nth_error t k = Some s /\
     n_res s = cs_res c /\ n_len s = cs_len c /\
     ((length p = 1 /\ held = [] /\ n_outer s = (-1)%Z) \/
      (1 < length p /\ exists j held' c', j < k /\ nth_error ps j = Some (removelast p) /\ n_outer s = Z.of_nat j /\
         path_to held' f (removelast p) c' /\ held = held' ++ [cs_res c'] /\ child c c')).
  Proof.
    intros Hk P. destruct (At k p Hk) as [held0 [c0 [s [P0 [Hs [R [Ln O]]]]]]].
    destruct (path_fun _ _ _ _ P0 _ _ P) as [-> ->]. exists s. split; [exact Hs|]. split; [exact R|]. split; [exact Ln|].
    destruct O as [[O1 O2]|[O1 [j [J1 [J2 J3]]]]].
    - left. split; [exact O1|]. split; [|exact O2]. inversion P as [|? ? ? ? ? ? p' ? H' P']; subst; [reflexivity|].
      apply path_nonempty in P'. destruct p'; [congruence|]. cbn in O1. lia.
    - right. split; [exact O1|]. destruct (path_parent _ _ _ _ P O1) as [held' [c' [A [B C]]]].
      exists j, held', c'. repeat split; assumption.
  Qed.

  (** the loop over the enclosing sections collects the resources on the path *)
  Lemma outer_loop k : forall p held c s fuel acc, nth_error ps k = Some p -> path_to held f p c -> nth_error t k = Some s -> k <= fuel ->
    outer_locks_loop fuel t (n_outer s) acc = Some (held ++ acc).
  Proof.
    induction k as [k IH] using lt_wf_ind. intros p held c s fuel acc Hk P Hs Hf.
    destruct (at_index k p held c Hk P) as [s' [Hs' [R [Ln O]]]]. rewrite Hs in Hs'. injection Hs' as <-.
    destruct O as [[O1 [-> O2]]|[O1 [j [held' [c' [J1 [J2 [J3 [J4 [-> J6]]]]]]]]]].
    - rewrite O2. destruct fuel; reflexivity.
    - destruct fuel as [|fuel]; [lia|]. rewrite J3. cbn [outer_locks_loop]. destruct (Z.eqb_spec (Z.of_nat j) (-1)); [lia|].
      rewrite cs_at_nat. destruct (at_index j _ held' c' J2 J4) as [s' [Hs' [R' _]]]. rewrite Hs'.
      rewrite (IH j J1 _ held' c' s' fuel (n_res s' :: acc) J2 J4 Hs') by lia. rewrite R', <- app_assoc. reflexivity.
  Qed.

  Lemma common_loop k : forall p held c s fuel other, nth_error ps k = Some p -> path_to held f p c -> nth_error t k = Some s -> k <= fuel ->
    exists b, common_outer_loop fuel t (n_outer s) other = Some b /\ (b = true <-> exists r, In r held /\ In r other).
  Proof.
    induction k as [k IH] using lt_wf_ind. intros p held c s fuel other Hk P Hs Hf.
    destruct (at_index k p held c Hk P) as [s' [Hs' [R [Ln O]]]]. rewrite Hs in Hs'. injection Hs' as <-.
    destruct O as [[O1 [-> O2]]|[O1 [j [held' [c' [J1 [J2 [J3 [J4 [-> J6]]]]]]]]]].
    - rewrite O2. exists false. split; [destruct fuel; reflexivity|]. split; [discriminate|]. intros [r [[] _]].
    - destruct fuel as [|fuel]; [lia|]. rewrite J3. cbn [common_outer_loop]. destruct (Z.eqb_spec (Z.of_nat j) (-1)); [lia|].
      rewrite cs_at_nat. destruct (at_index j _ held' c' J2 J4) as [s' [Hs' [R' _]]]. rewrite Hs'.
      destruct (existsb (Nat.eqb (n_res s')) other) eqn:E.
      + exists true. split; [reflexivity|]. split; [|reflexivity]. intros _. apply existsb_exists in E. destruct E as [r [A B]]. apply Nat.eqb_eq in B. subst r.
        exists (n_res s'). split; [|exact A]. apply in_or_app. right. left. congruence.
      + destruct (IH j J1 _ held' c' s' fuel other J2 J4 Hs') as [b [B1 B2]]; [lia|]. exists b. split; [exact B1|]. rewrite B2. split.
        * intros [r [A B]]. exists r. split; [apply in_or_app; left; exact A|exact B].
        * intros [r [A B]]. apply in_app_or in A. destruct A as [A|[<-|[]]]; [exists r; auto|]. exfalso.
          assert (X : existsb (Nat.eqb (n_res s')) other = true) by (apply existsb_exists; exists (cs_res c'); split; [exact B|apply Nat.eqb_eq; congruence]). congruence.
  Qed.

  Lemma outermost_spec k : forall p held c fuel, nth_error ps k = Some p -> path_to held f p c -> k < fuel ->
    exists j, get_outermost fuel t (Z.of_nat k) = Some (Z.of_nat j) /\ nth_error ps j = Some (firstn 1 p).
  Proof.
    induction k as [k IH] using lt_wf_ind. intros p held c fuel Hk P Hf.
    destruct (at_index k p held c Hk P) as [s [Hs [R [Ln O]]]]. destruct fuel as [|fuel]; [lia|].
    cbn [get_outermost]. rewrite cs_at_nat, Hs. unfold is_nested.
    destruct O as [[O1 [-> O2]]|[O1 [j [held' [c' [J1 [J2 [J3 [J4 [-> J6]]]]]]]]]].
    - rewrite O2. cbn. exists k. split; [reflexivity|]. rewrite Hk. f_equal. destruct p as [|x [|y p]]; cbn in O1; try lia. reflexivity.
    - rewrite J3. destruct (Z.eqb_spec (Z.of_nat j) (-1)); [lia|]. cbn [negb].
      destruct (IH j J1 _ held' c' fuel J2 J4) as [i [A B]]; [lia|]. exists i. split; [exact A|]. rewrite B. f_equal.
      destruct p as [|x [|y p]]; cbn in O1; try lia. reflexivity.
  Qed.

  Lemma nested_requests_spec k p held c : nth_error ps k = Some p -> path_to held f p c ->
    (has_nested_requests t k = true <-> cs_nested c <> []).
  Proof.
    intros Hk P. pose proof (sorted_nodup ps (proj1 Enum)) as ND. unfold has_nested_requests. rewrite existsb_exists. split.
    - intros [s [Hs E]]. apply Z.eqb_eq in E. apply In_nth_error in Hs. destruct Hs as [i Hi].
      assert (Hi' : exists n, nth_error t n = Some s).
      { exists (S k + i). rewrite <- Hi. clear. revert t. induction (S k) as [|m IH]; intros [|a t]; cbn; auto. destruct i; reflexivity. }
      destruct Hi' as [n Hn]. assert (Hl : n < length ps) by (rewrite Len; apply nth_error_Some; congruence).
      destruct (nth_error ps n) as [q|] eqn:Hq; [|apply nth_error_None in Hq; lia].
      destruct (At n q Hq) as [held1 [c1 [s1 [P1 [Hs1 _]]]]]. destruct (at_index n q held1 c1 Hq P1) as [s2 [Hs2 [_ [_ O]]]].
      rewrite Hn in Hs2. injection Hs2 as <-.
      destruct O as [[_ [_ O2]]|[O1 [j [held' [c' [J1 [J2 [J3 [J4 [J5 J6]]]]]]]]]]; [lia|].
      assert (j = k) by lia. subst j. rewrite Hk in J2. injection J2 as J2. rewrite <- J2 in J4. destruct (path_fun _ _ _ _ P _ _ J4) as [_ <-].
      destruct J6 as [r l m x Hx]. cbn. intros ->. destruct Hx.
    - intros N. destruct (cs_nested c) as [|x m] eqn:E; [congruence|].
      assert (Q : path_to (held ++ [cs_res c]) f (p ++ [0]) x) by (apply path_child; [exact P|]; rewrite E; reflexivity).
      assert (I : In (p ++ [0]) ps) by (apply (proj2 Enum); eauto). apply In_nth_error in I. destruct I as [n Hn].
      destruct (at_index n _ _ _ Hn Q) as [s [Hs [_ [_ O]]]].
      assert (Lp : 1 <= length p) by (pose proof (path_nonempty _ _ _ _ P); destruct p; [congruence|cbn; lia]).
      destruct O as [[O1 _]|[O1 [j [held' [c' [J1 [J2 [J3 _]]]]]]]]; [rewrite app_length in O1; cbn in O1; lia|].
      rewrite removelast_last in J2.
      assert (j = k). { apply (proj1 (NoDup_nth_error ps) ND); [apply nth_error_Some; congruence|congruence]. } subst j.
      exists s. split; [|apply Z.eqb_eq; exact J3]. apply nth_error_In with (n - S k). rewrite <- Hs. replace n with (S k + (n - S k)) at 2 by lia.
      clear. revert t. generalize (n - S k) as i. intros i. induction (S k) as [|m' IH]; intros [|a t]; cbn; auto. destruct i; reflexivity.
  Qed.

  (** the nesting pairs are those of the forest *)
  Lemma pairs_spec q r : In (q, r) (nest_pairs_of t) <-> exists c x, occurs c f /\ child x c /\ cs_res c = q /\ cs_res x = r.
  Proof.
    unfold nest_pairs_of. rewrite in_flat_map. split.
    - intros [s [Hs H]]. apply In_nth_error in Hs. destruct Hs as [n Hn].
      assert (Hl : n < length ps) by (rewrite Len; apply nth_error_Some; congruence).
      destruct (nth_error ps n) as [p|] eqn:Hp; [|apply nth_error_None in Hp; lia].
      destruct (At n p Hp) as [held1 [c1 [s1 [P1 [Hs1 _]]]]]. destruct (at_index n p held1 c1 Hp P1) as [s2 [Hs2 [R [_ O]]]].
      rewrite Hn in Hs2. injection Hs2 as <-. unfold is_nested in H.
      destruct O as [[_ [_ O2]]|[O1 [j [held' [c' [J1 [J2 [J3 [J4 [J5 J6]]]]]]]]]]; [rewrite O2 in H; destruct H|].
      rewrite J3, cs_at_nat in H. destruct (Z.eqb_spec (Z.of_nat j) (-1)); [lia|]. cbn [negb] in H.
      destruct (at_index j _ held' c' J2 J4) as [s' [Hs' [R' _]]]. rewrite Hs' in H. destruct H as [H|[]]. injection H as <- <-.
      exists c', c1. split; [exact (path_occurs _ _ _ _ J4)|]. split; [exact J6|]. split; congruence.
    - intros [c [x [O [C [<- <-]]]]]. destruct (occurs_path c f O) as [held [p P]].
      destruct C as [r l n x Hx]. apply In_nth_error in Hx. destruct Hx as [i Hi].
      pose proof (path_child _ _ _ _ P i x Hi) as Q.
      assert (I : In (p ++ [i]) ps) by (apply (proj2 Enum); eauto). apply In_nth_error in I. destruct I as [k Hk].
      destruct (at_index k _ _ _ Hk Q) as [s [Hs [R [_ O']]]].
      assert (Lp : 1 <= length p) by (pose proof (path_nonempty _ _ _ _ P); destruct p; [congruence|cbn; lia]).
      destruct O' as [[O1 _]|[O1 [j [held' [c' [J1 [J2 [J3 [J4 _]]]]]]]]]; [rewrite app_length in O1; cbn in O1; lia|].
      rewrite removelast_last in J2, J4. destruct (path_fun _ _ _ _ P _ _ J4) as [_ <-].
      exists s. split; [eapply nth_error_In, Hs|]. unfold is_nested. rewrite J3, cs_at_nat. destruct (Z.eqb_spec (Z.of_nat j) (-1)); [lia|]. cbn [negb].
      destruct (at_index j _ _ _ J2 P) as [s' [Hs' [R' _]]]. rewrite Hs'. left. rewrite R, R'. reflexivity.
  Qed.

  Lemma keys_spec r : In r (map n_res t) <-> exists c, occurs c f /\ cs_res c = r.
  Proof.
    rewrite in_map_iff. split.
    - intros [s [<- Hs]]. apply In_nth_error in Hs. destruct Hs as [n Hn].
      assert (Hl : n < length ps) by (rewrite Len; apply nth_error_Some; congruence).
      destruct (nth_error ps n) as [p|] eqn:Hp; [|apply nth_error_None in Hp; lia].
      destruct (At n p Hp) as [held1 [c1 [s1 [P1 [Hs1 [R _]]]]]]. rewrite Hn in Hs1. injection Hs1 as <-.
      exists c1. split; [exact (path_occurs _ _ _ _ P1)|congruence].
    - intros [c [O <-]]. destruct (occurs_path c f O) as [held [p P]].
      assert (I : In p ps) by (apply (proj2 Enum); eauto). apply In_nth_error in I. destruct I as [k Hk].
      destruct (at_index k _ _ _ Hk P) as [s [Hs [R _]]]. exists s. split; [exact R|]. eapply nth_error_In, Hs.
  Qed.
End Task.

(** ** the depth-first search *)
Section Search.
  Variable dn : nat -> list nat.
  Variable U : list nat.
  Hypothesis NDU : NoDup U.
  Hypothesis closed : forall u v, In u U -> In v (dn u) -> In v U.

  Definition edge (x y : nat) : Prop := In y (dn x).

  Fixpoint children (bt : nmap -> nat -> option nmap) (res : nat) (l : list nat) (tr : nmap) : option nmap :=
    match l with
    | [] => Some tr
    | nres :: l' => match bt tr nres with
                    | None => None
                    | Some tr1 => children bt res l' (nset tr1 res (nget tr1 nres ++ nres :: nget tr1 res))
                    end
    end.

  Lemma build_eq k tr res : build_trans (S k) dn tr res =
    match tr res with Some _ => Some tr | None => children (build_trans k dn) res (dn res) (nset tr res []) end.
  Proof.
    cbn [build_trans]. destruct (tr res); [reflexivity|]. generalize (nset tr res []) as m. induction (dn res) as [|v l IH]; intros m; [reflexivity|].
    cbn [children]. destruct (build_trans k dn m v); [|reflexivity]. apply IH.
  Qed.

  Definition unvisited (tr : nmap) : list nat := filter (fun u => match tr u with None => true | Some _ => false end) U.

  Lemma unvisited_le tr tr' : (forall x, tr x <> None -> tr' x <> None) -> length (unvisited tr') <= length (unvisited tr).
  Proof.
    intros H. unfold unvisited. clear NDU closed. induction U as [|u V IH]; cbn; [lia|]. specialize (H u).
    destruct (tr u), (tr' u); cbn; try lia. exfalso. apply H; congruence.
  Qed.

  Lemma unvisited_lt tr tr' r : In r U -> tr r = None -> tr' r <> None -> (forall x, tr x <> None -> tr' x <> None) ->
    length (unvisited tr') < length (unvisited tr).
  Proof.
    intros I N N' H. unfold unvisited. clear NDU closed. induction U as [|u V IH]; [destruct I|]. cbn.
    assert (HL : length (filter (fun u => match tr' u with None => true | Some _ => false end) V) <= length (filter (fun u => match tr u with None => true | Some _ => false end) V)).
    { clear - H. induction V as [|u V IH]; cbn; [lia|]. specialize (H u). destruct (tr u), (tr' u); cbn; try lia. exfalso. apply H; congruence. }
    destruct I as [->|I].
    - rewrite N. destruct (tr' r); [cbn; lia|congruence].
    - specialize (IH I). pose proof (H u) as Hu. destruct (tr u), (tr' u); cbn; try lia. exfalso. apply Hu; congruence.
  Qed.

  Lemma nset_same m k v : nset m k v k = Some v.
  Proof. unfold nset. rewrite Nat.eqb_refl. reflexivity. Qed.
  Lemma nset_other m k v x : x <> k -> nset m k v x = m x.
  Proof. intros H. unfold nset. destruct (Nat.eqb_spec x k); [congruence|reflexivity]. Qed.
  Lemma nset_def m k v x : m x <> None -> nset m k v x <> None.
  Proof. unfold nset. destruct (Nat.eqb x k); congruence. Qed.

  Definition sound (tr : nmap) : Prop := forall x r, In r (nget tr x) -> clos_trans nat edge x r.
  Definition inside (tr : nmap) : Prop := forall x, tr x <> None -> In x U.

  (** the search ends, changes no entry that existed, and collects only reachable resources *)
  Lemma search_ends k : forall tr res, In res U -> length (unvisited tr) < k -> sound tr -> inside tr ->
    exists tr', build_trans k dn tr res = Some tr' /\ (forall x, tr x <> None -> tr' x = tr x) /\ tr' res <> None /\ sound tr' /\ inside tr'.
  Proof.
    induction k as [|k IH]; intros tr res I L So In_; [lia|]. rewrite build_eq. destruct (tr res) as [s|] eqn:E.
    { exists tr. repeat split; auto. congruence. }
    assert (G : forall l tr1, (forall v, In v l -> In v (dn res)) -> sound tr1 -> inside tr1 -> tr1 res <> None ->
       (forall x, tr x <> None -> tr1 x = tr x) ->
       exists tr', children (build_trans k dn) res l tr1 = Some tr' /\ (forall x, tr x <> None -> tr' x = tr x) /\ tr' res <> None /\ sound tr' /\ inside tr').
    { induction l as [|v l IHl]; intros tr1 Hv So1 In1 D1 K1; cbn [children].
      - exists tr1. repeat split; auto.
      - assert (Iv : In v U) by (apply (closed res); [exact I|apply Hv; left; reflexivity]).
        assert (L1 : length (unvisited tr1) < k).
        { assert (length (unvisited tr1) < length (unvisited tr)); [|lia]. apply (unvisited_lt tr tr1 res I E D1). intros x Hx. rewrite (K1 x Hx). exact Hx. }
        destruct (IH tr1 v Iv L1 So1 In1) as [tr2 [B [K2 [D2 [So2 In2]]]]]. rewrite B. apply IHl.
        + intros w Hw. apply Hv. right. exact Hw.
        + intros x r. unfold nget at 1. destruct (Nat.eq_dec x res) as [->|N].
          * rewrite nset_same. intros H. apply in_app_or in H. destruct H as [H|[<-|H]].
            -- apply t_trans with v; [apply t_step; apply Hv; left; reflexivity|apply So2, H].
            -- apply t_step, Hv. left. reflexivity.
            -- apply So2, H.
          * rewrite nset_other by exact N. apply So2.
        + intros x Hx. destruct (Nat.eq_dec x res) as [->|N]; [exact I|]. rewrite nset_other in Hx by exact N. apply In2, Hx.
        + rewrite nset_same. discriminate.
        + intros x Hx. rewrite nset_other by (intros ->; congruence). rewrite K2 by (rewrite (K1 x Hx); exact Hx). apply K1, Hx. }
    apply G.
    - auto.
    - intros x r. unfold nget. destruct (Nat.eq_dec x res) as [->|N]; [rewrite nset_same; intros []|rewrite nset_other by exact N; apply So].
    - intros x Hx. destruct (Nat.eq_dec x res) as [->|N]; [exact I|]. rewrite nset_other in Hx by exact N. apply In_, Hx.
    - rewrite nset_same. discriminate.
    - intros x Hx. apply nset_other. congruence.
  Qed.

  (** without cycles every entry off the stack is complete *)
  Definition done (tr : nmap) (x : nat) : Prop := forall r, clos_trans nat edge x r -> In r (nget tr x).
  Hypothesis acyclic : forall x, ~ clos_trans nat edge x x.

  Lemma search_complete k : forall tr res st tr', In res U -> length (unvisited tr) < k -> sound tr -> inside tr ->
    (forall s, In s st -> clos_trans nat edge s res) ->
    (forall x, tr x <> None -> In x st \/ done tr x) ->
    build_trans k dn tr res = Some tr' -> forall x, tr' x <> None -> In x st \/ done tr' x.
  Proof.
    induction k as [|k IH]; intros tr res st tr' I L So In_ St Dn B; [lia|]. rewrite build_eq in B. destruct (tr res) as [s|] eqn:E.
    { injection B as <-. exact Dn. }
    assert (Nst : ~ In res st) by (intros H; exact (acyclic res (St res H))).
    assert (G : forall l pre tr1, dn res = pre ++ l -> sound tr1 -> inside tr1 -> tr1 res <> None ->
       (forall x, tr x <> None -> tr1 x = tr x) ->
       (forall x, tr1 x <> None -> In x (res :: st) \/ done tr1 x) ->
       (forall v, In v pre -> In v (nget tr1 res) /\ forall r, clos_trans nat edge v r -> In r (nget tr1 res)) ->
       children (build_trans k dn) res l tr1 = Some tr' -> forall x, tr' x <> None -> In x st \/ done tr' x).
    { induction l as [|v l IHl]; intros pre tr1 Hd So1 In1 D1 K1 C1 P1 B1; cbn [children] in B1.
      - injection B1 as <-. intros x Hx. destruct (C1 x Hx) as [[<-|Hs]|Hc]; [|left; exact Hs|right; exact Hc].
        right. rewrite app_nil_r in Hd. intros r R.
        apply clos_trans_t1n in R. destruct R as [r R|y r R R']; [apply P1; rewrite <- Hd; exact R|].
        apply clos_t1n_trans in R'. destruct (P1 y) as [_ Q]; [rewrite <- Hd; exact R|]. apply Q, R'.
      - assert (Ev : In v (dn res)) by (rewrite Hd; apply in_or_app; right; left; reflexivity).
        assert (Iv : In v U) by (apply (closed res); [exact I|exact Ev]).
        assert (L1 : length (unvisited tr1) < k).
        { assert (length (unvisited tr1) < length (unvisited tr)); [|lia]. apply (unvisited_lt tr tr1 res I E D1). intros x Hx. rewrite (K1 x Hx). exact Hx. }
        destruct (search_ends k tr1 v Iv L1 So1 In1) as [tr2 [B2 [K2 [D2 [So2 In2]]]]]. rewrite B2 in B1.
        assert (St2 : forall s, In s (res :: st) -> clos_trans nat edge s v).
        { intros s [<-|Hs]; [apply t_step; exact Ev|]. apply t_trans with res; [apply St, Hs|apply t_step; exact Ev]. }
        pose proof (IH tr1 v (res :: st) tr2 Iv L1 So1 In1 St2 C1 B2) as C2.
        assert (Dv : done tr2 v). { destruct (C2 v D2) as [H|H]; [|exact H]. exfalso. exact (acyclic v (St2 v H)). }
        assert (Er : tr2 res = tr1 res) by (apply K2; exact D1).
        assert (Nr : forall x, x <> res -> nget (nset tr2 res (nget tr2 v ++ v :: nget tr2 res)) x = nget tr2 x) by (intros x N; unfold nget at 1; rewrite nset_other by exact N; reflexivity).
        assert (Ns : nget (nset tr2 res (nget tr2 v ++ v :: nget tr2 res)) res = nget tr2 v ++ v :: nget tr2 res) by (unfold nget at 1; rewrite nset_same; reflexivity).
        apply (IHl (pre ++ [v]) _) with (8 := B1).
        + rewrite <- app_assoc. exact Hd.
        + intros x r. destruct (Nat.eq_dec x res) as [->|N].
          * rewrite Ns. intros H. apply in_app_or in H. destruct H as [H|[<-|H]].
            -- apply t_trans with v; [apply t_step; exact Ev|apply So2, H].
            -- apply t_step, Ev.
            -- apply So2, H.
          * rewrite Nr by exact N. apply So2.
        + intros x Hx. destruct (Nat.eq_dec x res) as [->|N]; [exact I|]. rewrite nset_other in Hx by exact N. apply In2, Hx.
        + rewrite nset_same. discriminate.
        + intros x Hx. rewrite nset_other by (intros ->; congruence). rewrite K2 by (rewrite (K1 x Hx); exact Hx). apply K1, Hx.
        + intros x Hx. destruct (Nat.eq_dec x res) as [->|N]; [left; left; reflexivity|]. rewrite nset_other in Hx by exact N.
          destruct (C2 x Hx) as [H|H]; [left; exact H|right]. intros r R. rewrite Nr by exact N. apply H, R.
        + intros w Hw. rewrite Ns. apply in_app_or in Hw. destruct Hw as [Hw|[<-|[]]].
          * destruct (P1 w Hw) as [A A']. unfold nget in A, A'. rewrite <- Er in A, A'. split; [|intros r R]; apply in_or_app; right; right; [exact A|apply A', R].
          * split; [apply in_or_app; right; left; reflexivity|]. intros r R. apply in_or_app. left. apply Dv, R. }
    apply (G (dn res) [] (nset tr res [])) with (8 := B).
    - reflexivity.
    - intros x r. unfold nget. destruct (Nat.eq_dec x res) as [->|N]; [rewrite nset_same; intros []|rewrite nset_other by exact N; apply So].
    - intros x Hx. destruct (Nat.eq_dec x res) as [->|N]; [exact I|]. rewrite nset_other in Hx by exact N. apply In_, Hx.
    - rewrite nset_same. discriminate.
    - intros x Hx. apply nset_other. congruence.
    - intros x Hx. destruct (Nat.eq_dec x res) as [->|N]; [left; left; reflexivity|]. rewrite nset_other in Hx by exact N.
      destruct (Dn x Hx) as [H|H]; [left; right; exact H|right]. intros r R. unfold nget. rewrite nset_other by exact N. apply H, R.
    - intros v [].
  Qed.
End Search.

Section All.
  Variable dn : nat -> list nat.
  Variable U : list nat.
  Hypothesis NDU : NoDup U.
  Hypothesis closed : forall u v, In u U -> In v (dn u) -> In v U.

  Lemma unvisited_bound tr : length (unvisited U tr) <= length U.
  Proof. unfold unvisited. clear. induction U as [|u V IH]; cbn; [lia|]. destruct (tr u); cbn; lia. Qed.

  Lemma all_ends fuel keys : length U < fuel -> forall tr, (forall x, In x keys -> In x U) -> sound dn tr -> inside U tr ->
    exists tr', build_all fuel dn tr keys = Some tr' /\ (forall x, tr x <> None -> tr' x = tr x) /\
      (forall x, In x keys -> tr' x <> None) /\ sound dn tr' /\ inside U tr' /\
      ((forall x, ~ clos_trans nat (edge dn) x x) -> (forall x, tr x <> None -> done dn tr x) -> forall x, tr' x <> None -> done dn tr' x).
  Proof.
    intros F. induction keys as [|k keys IH]; intros tr Hk So In_; cbn [build_all].
    - exists tr. repeat split; auto.
    - assert (L : length (unvisited U tr) < fuel) by (pose proof (unvisited_bound tr); lia).
      destruct (search_ends dn U closed fuel tr k (Hk k (or_introl eq_refl)) L So In_) as [tr1 [B [K1 [D1 [So1 In1]]]]]. rewrite B.
      destruct (IH tr1 (fun x Hx => Hk x (or_intror Hx)) So1 In1) as [tr2 [B2 [K2 [D2 [So2 [In2 C2]]]]]].
      exists tr2. split; [exact B2|]. split; [|split; [|split; [exact So2|split; [exact In2|]]]].
      + intros x Hx. rewrite K2 by (rewrite (K1 x Hx); exact Hx). apply K1, Hx.
      + intros x [<-|Hx]; [rewrite K2; exact D1|apply D2, Hx].
      + intros Ac Dn. apply (C2 Ac). intros x Hx.
        destruct (search_complete dn U closed Ac fuel tr k [] tr1 (Hk k (or_introl eq_refl)) L So In_) with (x := x) as [[]|H]; auto.
        intros s [].
  Qed.
End All.

(** ** the whole task set *)
Lemma model_of_tasks tasks : exists ts, get_cpp_nested_cs_model tasks = Some ts /\
  Forall2 (fun f t => add_flat [] (all_flat f) = Some t) tasks ts.
Proof.
  induction tasks as [|f r [ts [E F]]]; [exists []; split; [reflexivity|constructor]|].
  destruct (model_of_forest f) as [t [ps [A _]]]. exists (t :: ts). cbn. rewrite A, E. split; [reflexivity|]. constructor; assumption.
Qed.

Lemma pairs_of_tasks tasks ts : Forall2 (fun f t => add_flat [] (all_flat f) = Some t) tasks ts ->
  (forall q r, In (q, r) (nest_pairs ts) <-> requested_inside tasks q r) /\ (forall r, In r (nest_keys ts) <-> requested tasks r).
Proof.
  intros F.
  assert (T : forall f t, add_flat [] (all_flat f) = Some t ->
     (forall q r, In (q, r) (nest_pairs_of t) <-> exists c x, occurs c f /\ child x c /\ cs_res c = q /\ cs_res x = r) /\
     (forall r, In r (map n_res t) <-> exists c, occurs c f /\ cs_res c = r)).
  { intros f t A. destruct (model_of_forest f) as [t' [ps [A' [E [L At]]]]]. rewrite A in A'. injection A' as <-.
    split; intros; [apply (pairs_spec f t ps E L At)|apply (keys_spec f t ps E L At)]. }
  assert (I1 : forall f, In f tasks -> exists t, In t ts /\ add_flat [] (all_flat f) = Some t).
  { intros f Hf. clear T. induction F as [|a b l l' H F IH]; [destruct Hf|]. destruct Hf as [->|Hf]; [exists b; split; [left; reflexivity|exact H]|].
    destruct (IH Hf) as [t [A B]]. exists t. split; [right; exact A|exact B]. }
  assert (I2 : forall t, In t ts -> exists f, In f tasks /\ add_flat [] (all_flat f) = Some t).
  { intros t Ht. clear T I1. induction F as [|a b l l' H F IH]; [destruct Ht|]. destruct Ht as [->|Ht]; [exists a; split; [left; reflexivity|exact H]|].
    destruct (IH Ht) as [f [A B]]. exists f. split; [right; exact A|exact B]. }
  split.
  - intros q r. unfold nest_pairs. rewrite in_flat_map. split.
    + intros [t [Ht H]]. destruct (I2 t Ht) as [f [Hf A]]. apply (proj1 (T f t A)) in H. destruct H as [c [x [O [C [E1 E2]]]]].
      exists f, c, x. auto.
    + intros [f [c [x [Hf [O [C [E1 E2]]]]]]]. destruct (I1 f Hf) as [t [Ht A]]. exists t. split; [exact Ht|].
      apply (proj1 (T f t A)). exists c, x. auto.
  - intros r. unfold nest_keys. rewrite nodup_In, in_flat_map. split.
    + intros [t [Ht H]]. destruct (I2 t Ht) as [f [Hf A]]. apply (proj2 (T f t A)) in H. destruct H as [c [O E]].
      exists f, c. auto.
    + intros [f [c [Hf [O E]]]]. destruct (I1 f Hf) as [t [Ht A]]. exists t. split; [exact Ht|].
      apply (proj2 (T f t A)). exists c. auto.
Qed.

Lemma directly_nested_spec tasks ts : Forall2 (fun f t => add_flat [] (all_flat f) = Some t) tasks ts ->
  forall q r, In r (directly_nested ts q) <-> requested_inside tasks q r.
Proof.
  intros F q r. rewrite <- (proj1 (pairs_of_tasks tasks ts F)). unfold directly_nested. rewrite nodup_In, in_map_iff. split.
  - intros [[a b] [E H]]. cbn in E. subst b. apply filter_In in H. destruct H as [H E]. apply Nat.eqb_eq in E. cbn in E. subst a. exact H.
  - intros H. exists (q, r). split; [reflexivity|]. apply filter_In. split; [exact H|]. apply Nat.eqb_refl.
Qed.

Lemma clos_trans_iff (R S : nat -> nat -> Prop) : (forall x y, R x y <-> S x y) -> forall x y, clos_trans nat R x y <-> clos_trans nat S x y.
Proof.
  intros H x y. split; intros C; (induction C as [a b E|a b c _ IH1 _ IH2]; [apply t_step, H, E|apply t_trans with b; assumption]).
Qed.

Lemma transitive_spec tasks ts order fuel : get_cpp_nested_cs_model tasks = Some ts -> (forall l, Permutation (order l) l) ->
  length (nest_keys ts) < fuel ->
  exists m, get_transitive_nesting_relationship fuel order ts = Some m /\
    (forall q, m q <> None <-> requested tasks q) /\
    (forall q r, In r (nget m q) -> clos_trans nat (requested_inside tasks) q r) /\
    ((forall q, ~ clos_trans nat (requested_inside tasks) q q) -> forall q r, clos_trans nat (requested_inside tasks) q r -> In r (nget m q)).
Proof.
  intros E O F. destruct (model_of_tasks tasks) as [ts' [E' H]]. rewrite E in E'. injection E' as <-.
  pose proof (directly_nested_spec tasks ts H) as D. pose proof (proj2 (pairs_of_tasks tasks ts H)) as K.
  set (dn := fun r => order (directly_nested ts r)).
  assert (Ed : forall x y, edge dn x y <-> requested_inside tasks x y).
  { intros x y. unfold edge, dn. rewrite <- D. split; apply Permutation_in; [apply O|apply Permutation_sym, O]. }
  assert (Cl : forall u v, In u (nest_keys ts) -> In v (dn u) -> In v (nest_keys ts)).
  { intros u v _ Hv. apply Ed in Hv. apply K. destruct Hv as [f [c [x [Hf [Oc [C [_ <-]]]]]]]. exists f, x. split; [exact Hf|]. split; [|reflexivity].
    destruct Oc as [o [Ho W]]. exists o. split; [exact Ho|]. exact (within_trans_child x c o W C). }
  assert (Hk : forall x, In x (order (nest_keys ts)) -> In x (nest_keys ts)) by (intros x Hx; exact (Permutation_in x (O _) Hx)).
  destruct (all_ends dn (nest_keys ts) Cl fuel (order (nest_keys ts)) F (fun _ => None) Hk) as [m [B [_ [D2 [So [In_ C]]]]]].
  { intros x r []. } { intros x Hx. congruence. }
  exists m. split; [exact B|]. split; [|split].
  - intros q. rewrite <- K. split; [apply In_|]. intros Hq. apply D2. exact (Permutation_in q (Permutation_sym (O _)) Hq).
  - intros q r Hr. apply (clos_trans_iff _ _ Ed). apply So, Hr.
  - intros Ac q r R. assert (Nq : m q <> None).
    { apply D2, (Permutation_in q (Permutation_sym (O _))), K. clear - R. apply clos_trans_t1n in R.
      destruct R as [y [f [c [x [Hf [Oc [_ [<- _]]]]]]]|y z [f [c [x [Hf [Oc [_ [<- _]]]]]]] _]; exists f, c; auto. }
    apply (clos_trans_iff _ _ Ed) in R. apply (C (fun x Hx => Ac x (proj1 (clos_trans_iff _ _ Ed x x) Hx))); [intros x Hx; congruence|exact Nq|exact R].
Qed.
