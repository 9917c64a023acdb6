(** Lemmas about the serializer. *)
From Coq Require Import ZArith QArith List Bool String Ascii DecimalString DecimalZ DecimalPos Lia.
From Verif Require Import Base ModelTasks ModelSerialize SpecSerialize.
Import ListNotations.
Open Scope Z_scope.

Lemma py_int_str : forall z, py_int (str_int z) = Some z.
Proof.
  intros z. unfold py_int, str_int. rewrite NilZero.isi.
  - cbn [option_map]. rewrite of_to. reflexivity.
  - destruct z; cbn; try discriminate. intros E. injection E as E. apply (Unsigned.to_uint_nonnil p E).
  - destruct z; cbn; try discriminate. intros E. injection E as E. apply (Unsigned.to_uint_nonnil p E).
Qed.

Lemma round53_exact : forall n, binary64 n -> round53 n = n.
Proof.
  intros n [m [e [He [Hm [En _]]]]]. unfold round53. set (a := Z.abs n). destruct (a <? 2 ^ 53) eqn:E; [reflexivity|]. apply Z.ltb_ge in E.
  assert (P53 : 0 < 2 ^ 53) by (vm_compute; reflexivity).
  assert (Ea : a = Z.abs m * 2 ^ e) by (unfold a; rewrite En, Z.abs_mul, (Z.abs_eq (2 ^ e)) by (apply Z.pow_nonneg; lia); reflexivity).
  assert (Hp : 0 < 2 ^ e) by (apply Z.pow_pos_nonneg; lia).
  set (k := Z.log2 a - 52). assert (Hk1 : 1 <= k).
  { unfold k. assert (53 <= Z.log2 a); [|lia]. rewrite <- (Z.log2_pow2 53) by lia. apply Z.log2_le_mono. exact E. }
  assert (Hk2 : k <= e).
  { unfold k. assert (Z.log2 a < 53 + e); [|lia]. apply Z.log2_lt_pow2; [lia|]. rewrite Z.pow_add_r by lia. rewrite Ea. apply Z.mul_lt_mono_pos_r; assumption. }
  assert (Hpk : 0 < 2 ^ k) by (apply Z.pow_pos_nonneg; lia).
  assert (Ed : a = (Z.abs m * 2 ^ (e - k)) * 2 ^ k) by (rewrite Ea, <- Z.mul_assoc, <- Z.pow_add_r by lia; f_equal; f_equal; lia).
  assert (Er : a mod 2 ^ k = 0) by (rewrite Ed; apply Z.mod_mul; lia). rewrite Er.
  assert (Hh : 0 <? 2 ^ (k - 1) = true) by (apply Z.ltb_lt; apply Z.pow_pos_nonneg; lia). rewrite Hh.
  rewrite Ed at 1. rewrite Z.div_mul by lia. rewrite <- Ed. unfold a. rewrite Z.mul_comm. apply Z.abs_sgn.
Qed.

Lemma round53_binary : forall n, Z.abs (round53 n) < 2 ^ 1024 -> binary64 (round53 n).
Proof.
  intros n. unfold round53. set (a := Z.abs n). destruct (a <? 2 ^ 53) eqn:E; intros Hb.
  - apply Z.ltb_lt in E. exists n, 0. repeat split; [lia|exact E|rewrite Z.mul_1_r; reflexivity|exact Hb].
  - apply Z.ltb_ge in E. assert (P53 : 0 < 2 ^ 53) by (vm_compute; reflexivity). set (k := Z.log2 a - 52) in *. assert (Ha : 0 < a) by lia.
    assert (Hk1 : 1 <= k).
    { unfold k. assert (53 <= Z.log2 a); [|lia]. rewrite <- (Z.log2_pow2 53) by lia. apply Z.log2_le_mono. exact E. }
    destruct (Z.log2_spec a Ha) as [L1 L2]. assert (Hpk : 0 < 2 ^ k) by (apply Z.pow_pos_nonneg; lia).
    assert (Hq : a / 2 ^ k < 2 ^ 53).
    { apply Z.div_lt_upper_bound; [lia|]. rewrite <- Z.pow_add_r by lia. replace (k + 53) with (Z.succ (Z.log2 a)) by (unfold k; lia). exact L2. }
    assert (Hq0 : 0 <= a / 2 ^ k) by (apply Z.div_pos; lia).
    set (q' := if _ <? _ then _ else _) in *. assert (Hq' : 0 <= q' <= 2 ^ 53).
    { unfold q'. destruct (_ <? _); [lia|]. destruct (_ <? _); [lia|]. destruct (Z.even _); lia. }
    clearbody q'. assert (Hs : Z.abs (Z.sgn n) <= 1) by (destruct n; cbn; lia).
    destruct (Z.eq_dec q' (2 ^ 53)) as [->|N].
    + exists (Z.sgn n), (53 + k). split; [lia|]. split; [lia|]. split; [rewrite Z.pow_add_r by lia; reflexivity|exact Hb].
    + exists (Z.sgn n * q'), k. split; [lia|]. split; [rewrite Z.abs_mul, (Z.abs_eq q') by lia; nia|]. split; [ring|exact Hb].
Qed.

Lemma maybe_int_int : forall z, binary64 z -> maybe_int_str (str_int z) = VInt z.
Proof.
  intros z H. unfold maybe_int_str. rewrite py_int_str, round53_exact by exact H.
  destruct H as [m [e [_ [_ [_ H]]]]]. apply Z.ltb_lt in H. rewrite H. reflexivity.
Qed.

Lemma small_binary64 : forall z, Z.abs z <= 2 ^ 53 -> binary64 z.
Proof.
  intros z H. assert (2 ^ 53 < 2 ^ 1024) by (vm_compute; reflexivity). destruct (Z.eq_dec (Z.abs z) (2 ^ 53)) as [E|N].
  - exists (Z.sgn z), 53. split; [lia|]. split; [destruct z; vm_compute; reflexivity|]. split; [|lia]. rewrite <- E, Z.mul_comm. symmetry. apply Z.abs_sgn.
  - exists z, 0. split; [lia|]. split; [lia|]. split; [rewrite Z.mul_1_r; reflexivity|lia].
Qed.

Lemma maybe_int_name : forall s, name_like s = true -> maybe_int_str s = VStr s.
Proof.
  intros [|a s] H; [discriminate|]. unfold maybe_int_str.
  assert (E1 : py_int (String a s) = None).
  { unfold py_int, NilZero.int_of_string. unfold NilZero.uint_of_string. cbn [NilEmpty.uint_of_string].
    generalize (NilEmpty.uint_of_string s) as d. intros d. destruct a as [[] [] [] [] [] [] [] []]; try discriminate H; destruct d; reflexivity. }
  rewrite E1. assert (E2 : forall r, String.eqb (String a s) (String "i" r) = false) by (intros r; destruct a as [[] [] [] [] [] [] [] []]; try discriminate H; reflexivity).
  assert (E3 : forall r, String.eqb (String a s) (String "-" r) = false) by (intros r; destruct a as [[] [] [] [] [] [] [] []]; try discriminate H; reflexivity).
  rewrite E2, E3. reflexivity.
Qed.

Lemma maybe_int_plain : forall v, plain v -> maybe_int_str (py_str v) = v.
Proof. intros [|z|s|b] H; try contradiction; [apply maybe_int_int; exact H|apply maybe_int_name; exact H]. Qed.

Lemma pyval_eqb_eq : forall a b, pyval_eqb a b = true <-> a = b.
Proof.
  intros [|x|x|x] [|y|y|y]; cbn; split; intros H; try discriminate; try reflexivity.
  - apply Z.eqb_eq in H. subst. reflexivity.
  - inversion H. apply Z.eqb_refl.
  - apply String.eqb_eq in H. subst. reflexivity.
  - inversion H. apply String.eqb_refl.
  - apply Bool.eqb_prop in H. subst. reflexivity.
  - inversion H. apply Bool.eqb_reflx.
Qed.

Lemma existsb_in : forall v l, existsb (pyval_eqb v) l = true <-> In v l.
Proof.
  intros v l. rewrite existsb_exists. split; [intros [x [H E]]; apply pyval_eqb_eq in E; subst; exact H|].
  intros H. exists v. split; [exact H|apply pyval_eqb_eq; reflexivity].
Qed.

Lemma all_some_map : forall A B (f : A -> option B) (g : A -> B) l, (forall a, In a l -> f a = Some (g a)) -> all_some (map f l) = Some (map g l).
Proof.
  intros A B f g l. induction l as [|a l IH]; intros H; [reflexivity|]. cbn [map all_some]. rewrite (H a (or_introl eq_refl)). rewrite IH by (intros; apply H; right; assumption). reflexivity.
Qed.

Lemma all_some_inv : forall A B (f : A -> option B) l r, all_some (map f l) = Some r -> Forall2 (fun a b => f a = Some b) l r.
Proof.
  intros A B f l. induction l as [|a l IH]; intros r H; cbn [map all_some] in H; [inversion H; constructor|].
  destruct (f a) as [b|] eqn:E; [|discriminate]. destruct (all_some (map f l)) as [r'|]; [|discriminate]. inversion H; subst. constructor; [exact E|apply IH; reflexivity].
Qed.

Lemma findall_map : forall A (f : A -> elem) tag attrs t l, (forall a, el_tag (f a) = t) -> el_findall (Elem tag attrs (map f l)) t = map f l.
Proof.
  intros A f tag attrs t l H. unfold el_findall. cbn [el_kids]. induction l as [|a l IH]; [reflexivity|]. cbn [map filter]. rewrite H, String.eqb_refl, IH. reflexivity.
Qed.

(** ** Requirements *)
Definition stored (r : xreq) : xreq := XReq (q_id r) (q_writes r) (q_wlen r) (q_reads r) (q_rlen r) 0.

Lemma request_roundtrip : forall r, plain (q_id r) -> parse_request (res_requirement r) = Some (stored r).
Proof.
  intros r H. unfold parse_request, res_requirement, get_int, get_maybe, set_attribute, el_set, el_get. cbn [py_str el_tag el_attrs el_kids].
  cbn [assoc_set assoc String.eqb Ascii.eqb Bool.eqb fst snd]. rewrite !py_int_str. cbn [maybe_int]. rewrite maybe_int_plain by exact H. reflexivity.
Qed.

Lemma dict_fold : forall l d, NoDup (map q_id d ++ map q_id l) ->
  fold_left (fun d r => dict_set (q_id r) r d) l (map (fun r => (q_id r, r)) d) = map (fun r => (q_id r, r)) (d ++ l).
Proof.
  induction l as [|r l IH]; intros d H; [rewrite app_nil_r; reflexivity|]. cbn [fold_left].
  assert (E : dict_set (q_id r) r (map (fun r => (q_id r, r)) d) = map (fun r => (q_id r, r)) (d ++ [r])).
  { cbn [map] in H. apply NoDup_remove_2 in H. assert (G : ~ In (q_id r) (map q_id d)) by (intros X; apply H; apply in_or_app; left; exact X). clear - G.
    induction d as [|x d IH]; [reflexivity|]. cbn [map app dict_set]. destruct (pyval_eqb (q_id r) (q_id x)) eqn:E; [exfalso; apply G; left; apply pyval_eqb_eq in E; symmetry; exact E|].
    rewrite IH; [reflexivity|]. intros X. apply G. right. exact X. }
  rewrite E, IH; [rewrite <- app_assoc; reflexivity|]. rewrite map_app, <- app_assoc. exact H.
Qed.

(** ** Critical sections *)
Fixpoint xcs_size (c : xcs) : nat := match c with XCS _ _ l => S (fold_right (fun c n => xcs_size c + n)%nat 0%nat l) end.

Lemma xcs_size_in : forall l c, In c l -> (xcs_size c <= fold_right (fun c n => xcs_size c + n)%nat 0%nat l)%nat.
Proof. induction l as [|x l IH]; intros c H; [destruct H|]. cbn [fold_right]. destruct H as [->|H]; [lia|]. specialize (IH c H). lia. Qed.

Lemma cs_roundtrip : forall c held, plain_cs held c -> parse_cs held (nested_res_requirement c) = Some c.
Proof.
  assert (G : forall n c held, (xcs_size c <= n)%nat -> plain_cs held c -> parse_cs held (nested_res_requirement c) = Some c).
  { induction n as [|n IH]; intros c held Hn H; [destruct c; cbn in Hn; lia|]. destruct H as [held res len nested H1 H2 H3 H4].
    cbn [nested_res_requirement set_attribute el_set el_tag el_attrs el_kids assoc_set String.eqb Ascii.eqb Bool.eqb app parse_cs].
    unfold get_maybe, el_get. cbn [el_attrs assoc String.eqb Ascii.eqb Bool.eqb maybe_int]. rewrite !maybe_int_plain by assumption.
    destruct (existsb (pyval_eqb res) held) eqn:E; [apply existsb_in in E; contradiction|].
    rewrite map_map. rewrite (all_some_map _ _ _ (fun c => c)).
    - rewrite map_id. reflexivity.
    - intros c Hc. apply IH; [|apply H4; exact Hc]. pose proof (xcs_size_in nested c Hc). cbn [xcs_size] in Hn. lia. }
  intros c held H. apply (G (xcs_size c)); [lia|exact H].
Qed.

Lemma cs_tag : forall c, el_tag (nested_res_requirement c) = "critical_section"%string.
Proof. intros [res len nested]. reflexivity. Qed.

(** ** Affinities *)
Lemma set_fold : forall l d, NoDup (d ++ l) -> (forall v, In v l -> plain v) ->
  fold_left (fun l n => match get_maybe n "id" VNone with VNone => l | cpu => set_add l cpu end) (map cpu_elem l) d = d ++ l.
Proof.
  induction l as [|v l IH]; intros d H Hp; [rewrite app_nil_r; reflexivity|]. cbn [map fold_left].
  assert (Ev : get_maybe (cpu_elem v) "id" VNone = v).
  { unfold get_maybe, cpu_elem, el_set, el_get. cbn [el_tag el_attrs el_kids assoc_set assoc String.eqb Ascii.eqb Bool.eqb maybe_int]. apply maybe_int_plain. apply Hp. left. reflexivity. }
  assert (Ea : set_add d v = d ++ [v]).
  { unfold set_add. destruct (existsb (pyval_eqb v) d) eqn:E; [|reflexivity]. exfalso. apply existsb_in in E. apply NoDup_remove_2 in H. apply H. apply in_or_app. left. exact E. }
  assert (Hv : plain v) by (apply Hp; left; reflexivity).
  rewrite Ev. destruct v; try contradiction; cbv beta iota zeta; rewrite Ea; (rewrite IH; [rewrite <- app_assoc; reflexivity|rewrite <- app_assoc; exact H|intros; apply Hp; right; assumption]).
Qed.

(** ** Tasks *)
Definition stored_task (t : xtask) : xtask :=
  XTask (x_cost t) (x_period t) (x_deadline t) (x_id t) (x_partition t) None (x_wss t)
    (option_map (map (fun kr => (fst kr, stored (snd kr)))) (x_resmodel t))
    (match x_affinity t with Some [] => None | a => a end) (x_cs t).

Lemma assoc_set_get : forall A k k' (v : A) l, assoc k' (assoc_set k v l) = if String.eqb k' k then Some v else assoc k' l.
Proof.
  intros A k k' v l. induction l as [|[k0 v0] l IH]; cbn [assoc_set assoc]; [reflexivity|]. destruct (String.eqb_spec k k0) as [->|N].
  - cbn [assoc]. destruct (String.eqb k' k0); reflexivity.
  - cbn [assoc]. rewrite IH. destruct (String.eqb_spec k' k0) as [->|N']; [|reflexivity]. destruct (String.eqb_spec k0 k); [congruence|reflexivity].
Qed.

Lemma attr_get : forall e k v k', assoc k' (el_attrs (set_attribute e k v)) = match v with Some v => if String.eqb k' k then Some (py_str v) else assoc k' (el_attrs e) | None => assoc k' (el_attrs e) end.
Proof. intros e k [v|] k'; [apply assoc_set_get|reflexivity]. Qed.
Lemma attr_tag : forall e k v, el_tag (set_attribute e k v) = el_tag e.
Proof. intros e k [v|]; reflexivity. Qed.
Lemma attr_kids : forall e k v, el_kids (set_attribute e k v) = el_kids e.
Proof. intros e k [v|]; reflexivity. Qed.
Lemma sub_attrs : forall A e k (l : option (list A)) f, el_attrs (subtag e k l f) = el_attrs e.
Proof. intros A e k [l|] f; reflexivity. Qed.
Lemma sub_tag : forall A e k (l : option (list A)) f, el_tag (subtag e k l f) = el_tag e.
Proof. intros A e k [l|] f; reflexivity. Qed.
Lemma sub_kids : forall A e k (l : option (list A)) f, el_kids (subtag e k l f) = el_kids e ++ match l with Some l => [Elem k [] (map f l)] | None => [] end.
Proof. intros A e k [l|] f; [reflexivity|]. cbn [subtag]. rewrite app_nil_r. reflexivity. Qed.

Lemma elem_eta : forall e, e = Elem (el_tag e) (el_attrs e) (el_kids e). Proof. intros [t a k]. reflexivity. Qed.

Lemma task_shape : forall t, exists attrs, task_elem t = Elem "task" attrs
    (match x_resmodel t with Some l => [Elem "resources" [] (map (fun kr => res_requirement (snd kr)) l)] | None => [] end ++
     match x_affinity t with Some l => [Elem "affinity" [] (map cpu_elem l)] | None => [] end ++
     match x_cs t with Some l => [Elem "critical_sections" [] (map nested_res_requirement l)] | None => [] end) /\
  assoc "wcet" attrs = Some (py_str (x_cost t)) /\ assoc "period" attrs = Some (py_str (x_period t)) /\
  assoc "deadline" attrs = (if pyval_eqb (x_deadline t) (x_period t) then None else Some (py_str (x_deadline t))) /\
  assoc "id" attrs = (match x_id t with VNone => None | v => Some (py_str v) end) /\
  assoc "partition" attrs = option_map py_str (x_partition t) /\ assoc "wss" attrs = option_map py_str (x_wss t).
Proof.
  intros t. exists (el_attrs (task_elem t)). unfold task_elem. cbv zeta. rewrite !sub_attrs.
  set (e1 := match x_id t with VNone => _ | _ => _ end).
  assert (E1 : el_tag e1 = "task"%string /\ el_kids e1 = [] /\ assoc "id" (el_attrs e1) = (match x_id t with VNone => None | v => Some (py_str v) end) /\
     forall k, String.eqb k "id" = false -> assoc k (el_attrs e1) = None).
  { unfold e1. destruct (x_id t); (split; [reflexivity|split; [reflexivity|split; [reflexivity|]]]); intros k Hk; cbn [set_attribute el_set el_attrs assoc_set assoc]; rewrite ?Hk; reflexivity. }
  clearbody e1. destruct E1 as [T1 [T2 [T3 T4]]].
  set (e2 := set_attribute (set_attribute e1 "period" (Some (x_period t))) "wcet" (Some (x_cost t))).
  set (e3 := if negb _ then _ else e2).
  assert (E3 : el_tag e3 = "task"%string /\ el_kids e3 = [] /\ assoc "id" (el_attrs e3) = (match x_id t with VNone => None | v => Some (py_str v) end) /\
    assoc "wcet" (el_attrs e3) = Some (py_str (x_cost t)) /\ assoc "period" (el_attrs e3) = Some (py_str (x_period t)) /\
    assoc "deadline" (el_attrs e3) = (if pyval_eqb (x_deadline t) (x_period t) then None else Some (py_str (x_deadline t))) /\
    assoc "partition" (el_attrs e3) = None /\ assoc "wss" (el_attrs e3) = None).
  { unfold e3, e2. destruct (pyval_eqb (x_deadline t) (x_period t)); cbn [negb]; rewrite ?attr_tag, ?attr_kids, ?attr_get; cbn [String.eqb Ascii.eqb Bool.eqb];
      rewrite ?attr_tag, ?attr_kids, ?attr_get; cbn [String.eqb Ascii.eqb Bool.eqb]; rewrite ?attr_get; cbn [String.eqb Ascii.eqb Bool.eqb]; rewrite ?T3;
      repeat split; try assumption; apply T4; reflexivity. }
  clearbody e3. destruct E3 as [S1 [S2 [S3 [S4 [S5 [S6 [S7 S8]]]]]]].
  split; [|rewrite !attr_get; destruct (x_partition t), (x_response_time t), (x_wss t); cbn [String.eqb Ascii.eqb Bool.eqb option_map]; repeat split; assumption].
  match goal with |- ?x = _ => rewrite (elem_eta x) end. rewrite !sub_attrs, !sub_tag, !sub_kids, !attr_tag, !attr_kids, S1, S2. cbn [app]. rewrite <- app_assoc. reflexivity.
Qed.

Lemma task_roundtrip : forall t, plain_task t -> parse_task (task_elem t) = Some (stored_task t).
Proof.
  intros t [Hc Hp Hd Hi Hpa Hw Hr Ha Hs]. destruct (task_shape t) as [attrs [E [A1 [A2 [A3 [A4 [A5 A6]]]]]]]. rewrite E.
  unfold parse_task, get_maybe, get_attribute, el_get. cbn [el_attrs]. rewrite A1, A2, A3, A4, A5, A6. cbn [maybe_int]. rewrite !maybe_int_plain by assumption.
  assert (R : parse_resmodel (task_elem t) = Some (option_map (map (fun kr => (fst kr, stored (snd kr)))) (x_resmodel t))).
  { rewrite E. unfold parse_resmodel, el_find. cbn [el_kids]. destruct (x_resmodel t) as [l|].
    - cbn [app List.find el_tag String.eqb Ascii.eqb Bool.eqb]. rewrite (findall_map _ (fun kr : pyval * xreq => res_requirement (snd kr))) by reflexivity.
      rewrite map_map. destruct (Hr l eq_refl) as [N K]. rewrite (all_some_map _ _ _ (fun kr => stored (snd kr))) by (intros [k r] Hin; apply request_roundtrip; destruct (K k r Hin) as [X1 X2]; cbn [snd]; rewrite X1; exact X2).
      pose proof (dict_fold (map (fun kr => stored (snd kr)) l) []) as F. cbn [map app] in F. rewrite F.
      + cbn [option_map]. rewrite map_map. f_equal. f_equal. apply map_ext_in. intros [k r] Hin. destruct (K k r Hin) as [X _]. cbn [fst snd]. f_equal. exact X.
      + rewrite map_map. rewrite (map_ext_in _ fst); [exact N|]. intros [k r] Hin. cbn [fst snd stored q_id]. exact (proj1 (K k r Hin)).
    - destruct (x_affinity t), (x_cs t); reflexivity. }
  assert (S : parse_critical_sections (task_elem t) = Some (x_cs t)).
  { rewrite E. unfold parse_critical_sections, el_find. cbn [el_kids].
    assert (Ef : List.find (fun k => String.eqb (el_tag k) "critical_sections")
      (match x_resmodel t with Some l => [Elem "resources" [] (map (fun kr => res_requirement (snd kr)) l)] | None => [] end ++
       match x_affinity t with Some l => [Elem "affinity" [] (map cpu_elem l)] | None => [] end ++
       match x_cs t with Some l => [Elem "critical_sections" [] (map nested_res_requirement l)] | None => [] end) =
      option_map (fun l => Elem "critical_sections" [] (map nested_res_requirement l)) (x_cs t)) by (destruct (x_resmodel t), (x_affinity t), (x_cs t); reflexivity).
    rewrite Ef. destruct (x_cs t) as [l|]; cbn [option_map]; [|reflexivity].
    rewrite (findall_map _ nested_res_requirement) by apply cs_tag. rewrite map_map, (all_some_map _ _ _ (fun c => c)) by (intros c Hin; apply cs_roundtrip; apply (Hs l eq_refl c Hin)).
    rewrite map_id. reflexivity. }
  assert (F : parse_affinity (task_elem t) = x_affinity t).
  { rewrite E. unfold parse_affinity, el_find. cbn [el_kids].
    assert (Ef : List.find (fun k => String.eqb (el_tag k) "affinity")
      (match x_resmodel t with Some l => [Elem "resources" [] (map (fun kr => res_requirement (snd kr)) l)] | None => [] end ++
       match x_affinity t with Some l => [Elem "affinity" [] (map cpu_elem l)] | None => [] end ++
       match x_cs t with Some l => [Elem "critical_sections" [] (map nested_res_requirement l)] | None => [] end) =
      option_map (fun l => Elem "affinity" [] (map cpu_elem l)) (x_affinity t)) by (destruct (x_resmodel t), (x_affinity t), (x_cs t); reflexivity).
    rewrite Ef. destruct (x_affinity t) as [l|]; cbn [option_map]; [|reflexivity]. rewrite (findall_map _ cpu_elem) by reflexivity.
    destruct (Ha l eq_refl) as [N K]. rewrite set_fold; [reflexivity|exact N|exact K]. }
  rewrite <- E, R, S, F. unfold stored_task.
  assert (Ed : match option_map maybe_int_str (if pyval_eqb (x_deadline t) (x_period t) then None else Some (py_str (x_deadline t))) with Some d => d | None => x_period t end = x_deadline t).
  { destruct (pyval_eqb (x_deadline t) (x_period t)) eqn:X; cbn [option_map]; [apply pyval_eqb_eq in X; symmetry; exact X|apply maybe_int_plain; exact Hd]. }
  assert (Ei : match option_map maybe_int_str (match x_id t with VNone => None | v => Some (py_str v) end) with Some i => i | None => VNone end = x_id t).
  { destruct Hi as [->|Hi]; [reflexivity|]. destruct (x_id t) eqn:X; try contradiction; cbn [option_map]; apply maybe_int_plain; exact Hi. }
  assert (Eo : forall o, plain_opt o -> option_map maybe_int_str (option_map py_str o) = o) by (intros [v|] X; cbn [option_map]; [rewrite maybe_int_plain by exact X|]; reflexivity).
  rewrite Ed, Ei, !Eo by assumption. reflexivity.
Qed.

Lemma stored_same : forall t, plain_task t -> same_task t (stored_task t).
Proof.
  intros t H. constructor; try reflexivity; cbn [stored_task x_resmodel x_affinity].
  - destruct (x_resmodel t) as [l|] eqn:E; cbn [option_map]; [|exact I]. destruct (pt_resmodel t H l E) as [N K]. rewrite map_map. cbn [fst]. split; [exact N|]. split; [reflexivity|].
    intros k r'. rewrite in_map_iff. split.
    + intros [[k0 r] [X Hin]]. cbn [fst snd] in X. inversion X; subst. exists r. split; [exact Hin|]. repeat split; reflexivity.
    + intros [r [Hin [S1 [S2 [S3 [S4 [S5 S6]]]]]]]. exists (k, r). cbn [fst snd]. split; [|exact Hin]. f_equal. destruct r', r. unfold stored. cbn in *. congruence.
  - destruct (x_affinity t) as [[|a l]|] eqn:E; try exact I. destruct (pt_affinity t H _ E) as [N K]. split; [exact N|]. reflexivity.
Qed.

Lemma stored_plain : forall t, plain_task t -> plain_task (stored_task t) /\ stored_task (stored_task t) = stored_task t.
Proof.
  intros t H. split.
  - constructor; cbn [stored_task x_cost x_period x_deadline x_id x_partition x_wss x_resmodel x_affinity x_cs]; try apply H.
    + intros l E. destruct (x_resmodel t) as [l0|] eqn:E0; [|discriminate]. cbn [option_map] in E. inversion E; subst l. destruct (pt_resmodel t H l0 E0) as [N K]. rewrite map_map. split; [exact N|].
      intros k r Hin. apply in_map_iff in Hin. destruct Hin as [[k0 r0] [X Hin]]. inversion X; subst. apply (K _ _ Hin).
    + intros l E. apply (pt_affinity t H l). destruct (x_affinity t) as [[|a l0]|]; try discriminate; exact E.
  - unfold stored_task. cbn [x_cost x_period x_deadline x_id x_partition x_wss x_resmodel x_affinity x_cs]. f_equal.
    + destruct (x_resmodel t); cbn [option_map]; [|reflexivity]. rewrite map_map. reflexivity.
    + destruct (x_affinity t) as [[|a l]|]; reflexivity.
Qed.

Lemma task_tag : forall t, el_tag (task_elem t) = "task"%string.
Proof. intros t. destruct (task_shape t) as [attrs [-> _]]. reflexivity. Qed.

(** ** Task sets *)
Lemma taskset_shape : forall fs ts e, taskset_elem fs ts = Some e -> exists attrs, e = Elem "taskset" [] (Elem "properties" attrs [] :: map task_elem ts).
Proof.
  intros fs ts e H. unfold taskset_elem in H. destruct (all_some (map int_params ts)) as [its|]; [|discriminate]. destruct (forallb _ its); [|discriminate].
  cbv zeta in H. destruct (hyperperiod its =? 0); inversion H; eexists; unfold el_set; cbn [el_tag el_kids]; reflexivity.
Qed.

Lemma taskset_roundtrip : forall fs ts e, taskset_elem fs ts = Some e -> Forall plain_task ts -> parse_taskset e = Some (map stored_task ts).
Proof.
  intros fs ts e H Hp. destruct (taskset_shape fs ts e H) as [attrs ->]. unfold parse_taskset.
  assert (E : el_findall (Elem "taskset" [] (Elem "properties" attrs [] :: map task_elem ts)) "task" = map task_elem ts).
  { unfold el_findall. cbn [el_kids filter el_tag String.eqb Ascii.eqb Bool.eqb]. apply (findall_map _ task_elem "" [] "task" ts task_tag). }
  rewrite E, map_map. apply all_some_map. intros t Ht. apply task_roundtrip. rewrite Forall_forall in Hp. apply Hp. exact Ht.
Qed.

Lemma int_params_some : forall t, measurable t -> exists u, int_params t = Some u /\ t_period u <> 0 /\ Z.min (t_period u) (t_deadline u) <> 0.
Proof. intros t [c [p [d [E1 [E2 [E3 [H1 H2]]]]]]]. unfold int_params. rewrite E1, E2, E3. eexists. split; [reflexivity|]. split; assumption. Qed.

Lemma taskset_total : forall fs ts, taskset_elem fs ts <> None <-> Forall measurable ts.
Proof.
  intros fs ts. unfold taskset_elem. split.
  - intros H. destruct (all_some (map int_params ts)) as [its|] eqn:E; [|contradiction]. destruct (forallb _ its) eqn:F; [|contradiction]. clear H.
    apply all_some_inv in E. rewrite forallb_forall in F. induction E as [|t u ts its Et E IH]; constructor.
    + specialize (F u (or_introl eq_refl)). apply andb_true_iff in F. destruct F as [F1 F2]. apply negb_true_iff in F1, F2. apply Z.eqb_neq in F1, F2.
      unfold int_params in Et. destruct (x_cost t) eqn:E1; try discriminate. destruct (x_period t) eqn:E2; try discriminate. destruct (x_deadline t) eqn:E3; try discriminate. inversion Et; subst u.
      exists z, z0, z1. repeat split; assumption.
    + apply IH. intros x Hx. apply F. right. exact Hx.
  - intros H. assert (exists its, all_some (map int_params ts) = Some its /\ Forall (fun u => t_period u <> 0 /\ Z.min (t_period u) (t_deadline u) <> 0) its) as [its [E F]].
    { induction H as [|t ts Ht H IH]; [exists []; split; [reflexivity|constructor]|]. destruct IH as [its [E F]]. destruct (int_params_some t Ht) as [u [Eu Hu]].
      exists (u :: its). cbn [map all_some]. rewrite Eu, E. split; [reflexivity|constructor; assumption]. }
    rewrite E. assert (G : forallb (fun t => negb (t_period t =? 0) && negb (Z.min (t_period t) (t_deadline t) =? 0)) its = true).
    { apply forallb_forall. intros u Hu. rewrite Forall_forall in F. destruct (F u Hu) as [F1 F2]. apply andb_true_iff. split; apply negb_true_iff; apply Z.eqb_neq; assumption. }
    rewrite G. discriminate.
Qed.

(** ** Testpoints *)
Lemma assoc_set_new : forall A k (v : A) l, ~ In k (map fst l) -> assoc_set k v l = l ++ [(k, v)].
Proof.
  induction l as [|[k' v'] l IH]; intros H; [reflexivity|]. cbn [assoc_set]. destruct (String.eqb_spec k k') as [->|N]; [exfalso; apply H; left; reflexivity|].
  rewrite IH; [reflexivity|]. intros X. apply H. right. exact X.
Qed.

Lemma config_fold : forall params a, NoDup (map fst a ++ map fst params) ->
  fold_left (fun e kv => el_set e (fst kv) (py_str (snd kv))) params (Elem "config" a []) = Elem "config" (a ++ map (fun kv => (fst kv, py_str (snd kv))) params) [].
Proof.
  induction params as [|[k v] params IH]; intros a H; [rewrite app_nil_r; reflexivity|]. cbn [fold_left fst snd map].
  unfold el_set at 2. cbn [el_tag el_attrs el_kids]. rewrite assoc_set_new.
  - rewrite IH; [rewrite <- app_assoc; reflexivity|]. rewrite map_app, <- app_assoc. exact H.
  - cbn [map fst] in H. apply NoDup_remove_2 in H. intros X. apply H. apply in_or_app. left. exact X.
Qed.

Lemma params_fold : forall (l : list (string * pyval)) d, NoDup (map fst d ++ map fst l) -> (forall k v, In (k, v) l -> plain v) ->
  fold_left (fun d kv => assoc_set (fst kv) (maybe_int_str (snd kv)) d) (map (fun kv => (fst kv, py_str (snd kv))) l) d = d ++ l.
Proof.
  induction l as [|[k v] l IH]; intros d H Hp; [rewrite app_nil_r; reflexivity|]. cbn [map fold_left fst snd]. rewrite maybe_int_plain by (apply (Hp k); left; reflexivity).
  rewrite assoc_set_new.
  - rewrite IH; [rewrite <- app_assoc; reflexivity| |intros; apply (Hp k0); right; assumption]. rewrite map_app, <- app_assoc. exact H.
  - cbn [map fst] in H. apply NoDup_remove_2 in H. intros X. apply H. apply in_or_app. left. exact X.
Qed.

Lemma testpoint_roundtrip : forall fs tss params e, testpoint_elem fs tss params = Some e -> Forall (Forall plain_task) tss ->
  NoDup (map fst params) -> (forall k v, In (k, v) params -> plain v) ->
  load e = LTestpoint params (map (map stored_task) tss).
Proof.
  intros fs tss params e H Hp N K. unfold testpoint_elem in H. cbv zeta in H. rewrite config_fold in H by exact N. cbn [app] in H.
  destruct (all_some (map (taskset_elem fs) tss)) as [l|] eqn:E; [|discriminate]. inversion H; subst e. clear H. apply all_some_inv in E.
  assert (P : parse_testpoint (Elem "testpoint" [] (Elem "config" (map (fun kv => (fst kv, py_str (snd kv))) params) [] :: l)) = Some (params, map (map stored_task) tss)).
  { unfold parse_testpoint, el_find. cbn [el_kids List.find el_tag String.eqb Ascii.eqb Bool.eqb el_attrs]. rewrite params_fold by assumption. cbn [app].
    unfold el_findall. cbn [el_kids filter el_tag String.eqb Ascii.eqb Bool.eqb].
    assert (G : all_some (map parse_taskset (filter (fun k => String.eqb (el_tag k) "taskset") l)) = Some (map (map stored_task) tss)); [|rewrite G; reflexivity].
    clear N K. induction E as [|ts e tss l E1 E IH]; [reflexivity|]. inversion Hp; subst. destruct (taskset_shape fs ts e E1) as [attrs Ee].
    cbn [filter]. rewrite Ee at 1. cbn [el_tag String.eqb Ascii.eqb Bool.eqb]. cbn [map all_some]. rewrite (taskset_roundtrip fs ts e E1) by assumption. rewrite (IH H2). reflexivity. }
  unfold load. cbn [el_tag String.eqb Ascii.eqb Bool.eqb]. rewrite P. reflexivity.
Qed.
