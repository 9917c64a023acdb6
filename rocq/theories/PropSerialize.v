(** C33: serialization round-trips task sets. *)
From Coq Require Import ZArith QArith List Bool String Lia Permutation.
From Verif Require Import Base ModelTasks ProofTasks ModelSerialize SpecSerialize ProofSerialize.
Import ListNotations.
Open Scope Z_scope.

(** A stored task can be loaded, and agrees with the original. *)
Theorem C33_task : forall t, plain_task t -> exists t', load (task_elem t) = LTask t' /\ same_task t t'.
Proof.
  intros t H. exists (stored_task t). split; [|apply stored_same; exact H]. unfold load. rewrite task_tag. cbn [String.eqb Ascii.eqb Bool.eqb]. rewrite task_roundtrip by exact H. reflexivity.
Qed.
Print Assumptions C33_task.

(** Whole task sets, in order. *)
Theorem C33_taskset : forall float_str ts e, taskset_elem float_str ts = Some e -> Forall plain_task ts ->
  exists ts', load e = LTaskset ts' /\ Forall2 same_task ts ts'.
Proof.
  intros fs ts e H Hp. exists (map stored_task ts). split.
  - unfold load. destruct (taskset_shape fs ts e H) as [attrs Ee]. rewrite Ee at 1. cbn [el_tag String.eqb Ascii.eqb Bool.eqb]. rewrite (taskset_roundtrip fs ts e H Hp). reflexivity.
  - clear H. induction Hp; constructor; [apply stored_same; assumption|assumption].
Qed.
Print Assumptions C33_taskset.

(** Writing fails exactly if a utilization or density is undefined. *)
Theorem C33_writable : forall float_str ts, taskset_elem float_str ts <> None <-> Forall measurable ts.
Proof. exact taskset_total. Qed.
Print Assumptions C33_writable.

(** Test points: parameters and task sets. *)
Theorem C33_testpoint : forall float_str tss params e, testpoint_elem float_str tss params = Some e -> Forall (Forall plain_task) tss ->
  NoDup (map fst params) -> (forall k v, In (k, v) params -> plain v) ->
  exists tss', load e = LTestpoint params tss' /\ Forall2 (Forall2 same_task) tss tss'.
Proof.
  intros fs tss params e H Hp N K. exists (map (map stored_task) tss). split; [apply (testpoint_roundtrip fs tss params e); assumption|]. clear H.
  induction Hp as [|ts tss Ht Hp IH]; constructor; [|exact IH]. clear IH. induction Ht; constructor; [apply stored_same; assumption|assumption].
Qed.
Print Assumptions C33_testpoint.

(** A second round trip changes nothing. *)
Theorem C33_idempotent : forall t t', plain_task t -> load (task_elem t) = LTask t' -> load (task_elem t') = LTask t'.
Proof.
  intros t t' H E. unfold load in *. rewrite task_tag in *. cbn [String.eqb Ascii.eqb Bool.eqb] in *. rewrite task_roundtrip in E by exact H. inversion E; subst t'.
  destruct (stored_plain t H) as [P1 P2]. rewrite task_roundtrip by exact P1. rewrite P2. reflexivity.
Qed.
Print Assumptions C33_idempotent.

(** Different tasks have different files. *)
Theorem C33_injective : forall t1 t2, plain_task t1 -> plain_task t2 -> task_elem t1 = task_elem t2 ->
  exists t, same_task t1 t /\ same_task t2 t.
Proof.
  intros t1 t2 H1 H2 E. exists (stored_task t1). split; [apply stored_same; exact H1|].
  pose proof (task_roundtrip t1 H1) as R1. pose proof (task_roundtrip t2 H2) as R2. rewrite E, R2 in R1. assert (R : stored_task t2 = stored_task t1) by congruence. rewrite <- R. apply stored_same. exact H2.
Qed.
Print Assumptions C33_injective.

(** An integer attribute survives exactly if it is a binary64 number. *)
Theorem C33_integers : forall z, get_maybe (set_attribute (Elem "task" [] []) "period" (Some (VInt z))) "period" VNone = VInt z <-> binary64 z.
Proof.
  intros z. unfold get_maybe, el_get. rewrite attr_get. cbn [String.eqb Ascii.eqb Bool.eqb maybe_int py_str]. split; [|apply maybe_int_int].
  unfold maybe_int_str. rewrite py_int_str. destruct (Z.abs (round53 z) <? 2 ^ 1024) eqn:E; intros H; [|discriminate].
  apply Z.ltb_lt in E. assert (X : round53 z = z) by congruence. rewrite <- X. apply round53_binary. exact E.
Qed.
Print Assumptions C33_integers.

Example C33_integers_example : binary64 (- (10 ^ 15)) /\ binary64 (2 ^ 53) /\ binary64 (3 * 2 ^ 100) /\ ~ binary64 (2 ^ 53 + 1).
Proof.
  split; [apply small_binary64; vm_compute; discriminate|]. split; [apply small_binary64; vm_compute; discriminate|]. split; [exists 3, 100; repeat split; vm_compute; try discriminate; reflexivity|].
  intros H. apply C33_integers in H. vm_compute in H. discriminate.
Qed.

(** The properties of a written task set are those of its tasks: their number,
    exact utilization, exact density and hyperperiod. *)
Theorem C33_properties : forall float_str ts e l, taskset_elem float_str ts = Some e -> Forall2 has_params ts l ->
  exists prop rest, el_kids e = prop :: rest /\ el_tag prop = "properties"%string /\
    (exists s, el_get prop "count" = Some s /\ py_int s = Some (Z.of_nat (List.length ts))) /\
    (exists s, el_get prop "utilization_q" = Some s /\ denotes s (sum_util l)) /\
    (exists s, el_get prop "density_q" = Some s /\ denotes s (sum_density l)) /\
    (ts <> [] -> (forall q, In q l -> 0 < snd (fst q)) -> exists s h, el_get prop "hyperperiod" = Some s /\ py_int s = Some h /\ 0 < h /\
       (forall q, In q l -> (snd (fst q) | h)) /\ forall c, (forall q, In q l -> (snd (fst q) | c)) -> (h | c)).
Proof.
  intros fs ts e l H F.
  assert (IP : all_some (map int_params ts) = Some (map (fun q => Task (fst (fst q)) (snd (fst q)) (snd q)) l)).
  { clear H. induction F as [|t q ts l [A [B C]] F IH]; [reflexivity|]. cbn [map all_some]. unfold int_params at 1. rewrite A, B, C. rewrite IH. reflexivity. }
  unfold taskset_elem in H. rewrite IP in H. set (its := map (fun q => Task (fst (fst q)) (snd (fst q)) (snd q)) l) in *.
  destruct (forallb _ its) eqn:FB; [|discriminate]. inversion H as [E]. clear H E.
  assert (SQ : forall q q', (q' == q)%Q -> denotes (str_q q) q').
  { intros q q' E. unfold str_q, denotes. assert (R : (q' == Qnum (Qred q) # Qden (Qred q))%Q) by (rewrite E, <- (Qred_correct q) at 1; destruct (Qred q); reflexivity).
    exists (Qnum (Qred q)). destruct (Pos.eqb_spec (Qden (Qred q)) 1) as [D|D].
    - left. rewrite py_int_str. split; [reflexivity|]. rewrite R, D. reflexivity.
    - right. exists (Qden (Qred q)), (str_int (Qnum (Qred q))), (str_int (Zpos (Qden (Qred q)))). rewrite !py_int_str. repeat split; try reflexivity. assumption. }
  assert (U : (sum_util l == ts_utilization its None)%Q).
  { unfold its, ts_utilization. clear. induction l as [|[[c p] d] l IH]; [reflexivity|]. cbn [sum_util map fst snd qsum fold_right]. rewrite IH. reflexivity. }
  assert (D : (sum_density l == ts_density its)%Q).
  { unfold its, ts_density. clear. induction l as [|[[c p] d] l IH]; [reflexivity|]. cbn [sum_density map fst snd qsum fold_right]. rewrite IH. reflexivity. }
  set (h := hyperperiod its) in *. eexists. eexists. split; [reflexivity|]. split; [destruct (h =? 0); reflexivity|]. split; [|split; [|split]].
  - exists (str_int (Z.of_nat (List.length ts))). rewrite py_int_str. split; [|reflexivity]. destruct (h =? 0); reflexivity.
  - eexists. split; [|apply SQ; exact U]. destruct (h =? 0); reflexivity.
  - eexists. split; [|apply SQ; exact D]. destruct (h =? 0); reflexivity.
  - intros NE P.
    assert (NI : its <> []) by (unfold its; inversion F; subst; [congruence|discriminate]).
    assert (PI : Forall (fun t => 0 < t_period t) its).
    { apply Forall_forall. intros t I. unfold its in I. apply in_map_iff in I. destruct I as [q [<- I]]. apply P. assumption. }
    destruct (hyperperiod_spec its NI PI) as [H1 [H2 H3]]. fold h in H1, H2, H3. exists (str_int h), h. rewrite py_int_str.
    split; [destruct (Z.eqb_spec h 0); [lia|reflexivity]|]. split; [reflexivity|]. split; [assumption|]. split.
    + intros q I. apply (H2 (Task (fst (fst q)) (snd (fst q)) (snd q))). unfold its. apply in_map_iff. exists q. split; [reflexivity|assumption].
    + intros c C. apply H3. intros t I. unfold its in I. apply in_map_iff in I. destruct I as [q [<- I]]. apply C. assumption.
Qed.
Print Assumptions C33_properties.

(** If a file names a resource several times, the last requirement counts. *)
Theorem C33_duplicates : forall node rm l, el_find node "resources" = Some rm -> parse_resmodel node = Some (Some l) ->
  NoDup (map fst l) /\
  forall k r, In (k, r) l -> exists pre e post, el_findall rm "requirement" = pre ++ e :: post /\ parse_request e = Some r /\ q_id r = k /\
    forall e' r', In e' post -> parse_request e' = Some r' -> q_id r' <> k.
Proof.
  intros node rm l E H. unfold parse_resmodel in H. rewrite E in H.
  destruct (all_some (map parse_request (el_findall rm "requirement"))) as [reqs|] eqn:A; [|discriminate]. inversion H as [L]. clear H.
  apply all_some_inv in A. set (es := el_findall rm "requirement") in *. clearbody es. clear E node rm.
  assert (DS : forall k r d, map fst (dict_set k r d) = if existsb (pyval_eqb k) (map fst d) then map fst d else map fst d ++ [k]).
  { intros k r. induction d as [|[k' r'] d IH]; [reflexivity|]. cbn [dict_set map fst existsb]. destruct (pyval_eqb k k') eqn:Q; cbn [orb map fst]; [reflexivity|].
    rewrite IH. destruct (existsb _ _); reflexivity. }
  assert (DI : forall k r d k0 r0, NoDup (map fst d) -> In (k0, r0) (dict_set k r d) -> (k0 = k /\ r0 = r) \/ (k0 <> k /\ In (k0, r0) d)).
  { intros k r. induction d as [|[k' r'] d IH]; intros k0 r0 N I; cbn [dict_set] in I.
    - destruct I as [I|[]]. inversion I. left. split; reflexivity.
    - cbn [map fst] in N. apply NoDup_cons_iff in N. destruct N as [N1 N2]. destruct (pyval_eqb k k') eqn:Q.
      + apply pyval_eqb_eq in Q. subst k'. destruct I as [I|I]; [inversion I; left; split; reflexivity|]. right. split; [|right; assumption].
        intros ->. apply N1. apply (in_map fst) in I. exact I.
      + destruct I as [I|I].
        * inversion I. subst. right. split; [|left; reflexivity]. intros ->. assert (pyval_eqb k k = true) by (apply pyval_eqb_eq; reflexivity). congruence.
        * destruct (IH _ _ N2 I) as [X|[X Y]]; [left; assumption|]. right. split; [assumption|right; assumption]. }
  assert (DN : forall k r d, NoDup (map fst d) -> NoDup (map fst (dict_set k r d))).
  { intros k r d N. rewrite DS. destruct (existsb _ _) eqn:X; [assumption|]. apply (Permutation_NoDup (Permutation_cons_append _ k)). constructor; [|assumption].
    intros I. apply existsb_in in I. congruence. }
  assert (G : forall es reqs, Forall2 (fun a b => parse_request a = Some b) es reqs ->
     NoDup (map fst (fold_left (fun d r => dict_set (q_id r) r d) reqs [])) /\
     forall k r, In (k, r) (fold_left (fun d r => dict_set (q_id r) r d) reqs []) -> exists pre e post, es = pre ++ e :: post /\ parse_request e = Some r /\ q_id r = k /\
       forall e' r', In e' post -> parse_request e' = Some r' -> q_id r' <> k).
  { clear A L es reqs l. induction es as [|e es IH] using rev_ind; intros reqs F.
    - inversion F. subst. split; [constructor|intros k r []].
    - apply Forall2_app_inv_l in F. destruct F as [r1 [r2 [F1 [F2 ->]]]]. inversion F2 as [|a b la lb PA PB]. subst. inversion PB. subst. clear F2 PB.
      rewrite fold_left_app. cbn [fold_left]. destruct (IH _ F1) as [N I]. split; [apply DN; assumption|].
      intros k r K. apply DI in K; [|assumption]. destruct K as [[-> ->]|[K1 K2]].
      + exists es, e, []. split; [reflexivity|]. split; [assumption|]. split; [reflexivity|]. intros e' r' [].
      + destruct (I _ _ K2) as [pre [e0 [post [X1 [X2 [X3 X4]]]]]]. exists pre, e0, (post ++ [e]). split; [rewrite X1, <- app_assoc; reflexivity|].
        split; [assumption|]. split; [assumption|]. intros e' r' J P. apply in_app_or in J. destruct J as [J|[<-|[]]]; [eapply X4; eassumption|]. congruence. }
  subst l. apply G. assumption.
Qed.
Print Assumptions C33_duplicates.

Example C33_duplicates_case : exists l, parse_resmodel (Elem "task" [] [Elem "resources" [] [Elem "requirement" [("res_id", "1"); ("max_writes", "2")] [];
   Elem "requirement" [("res_id", "1"); ("max_writes", "5")] []]])%string = Some (Some l) /\ l = [(VInt 1, XReq (VInt 1) 5 1 0 0 0)].
Proof. eexists. split; vm_compute; reflexivity. Qed.

(** Integers beyond 2^53 may change. *)
Definition large_task : xtask := XTask (VInt 1) (VInt (2 ^ 53 + 1)) (VInt (2 ^ 53 + 1)) VNone None None None None None None.

Theorem C33_large_refuted : exists t t', x_resmodel t = None /\ load (task_elem t) = LTask t' /\ x_period t = VInt (2 ^ 53 + 1) /\ x_period t' = VInt (2 ^ 53).
Proof. exists large_task. eexists. repeat split; vm_compute; reflexivity. Qed.
Print Assumptions C33_large_refuted.

(** The bounds of C33_task cannot be dropped: an attribute None becomes text, a
    text that reads as a number becomes a number. *)
Theorem C33_none_refuted : exists t t', load (task_elem t) = LTask t' /\ x_partition t = Some VNone /\ x_partition t' = Some (VStr "None") /\
  x_id t = VStr "007" /\ x_id t' = VInt 7.
Proof. exists (XTask (VInt 1) (VInt 5) (VInt 5) (VStr "007") (Some VNone) None None None None None). eexists. repeat split; vm_compute; reflexivity. Qed.
Print Assumptions C33_none_refuted.

(** Sections nested in a section of the same resource (which the library can
    represent, resources.py:79-82) are written but cannot be loaded. *)
Theorem C33_reentrant_refuted : exists t, load (task_elem t) = LError /\ x_cs t = Some [XCS (VInt 1) (VInt 2) [XCS (VInt 1) (VInt 1) []]].
Proof. exists (XTask (VInt 1) (VInt 5) (VInt 5) VNone None None None None None (Some [XCS (VInt 1) (VInt 2) [XCS (VInt 1) (VInt 1) []]])). split; reflexivity. Qed.
Print Assumptions C33_reentrant_refuted.

(** The response time is written but not read, the priority of a requirement is
    not written, and an empty affinity mask is lost. *)
Definition lossy_task : xtask :=
  XTask (VInt 2) (VInt 5) (VInt 4) (VInt 3) None (Some (VInt 3)) None (Some [(VStr "serial I/O", XReq (VStr "serial I/O") 1 2 3 4 7)]) (Some []) None.

Theorem C33_lossy_refuted : exists t t', load (task_elem t) = LTask t' /\ x_response_time t = Some (VInt 3) /\ x_response_time t' = None /\
  x_resmodel t = Some [(VStr "serial I/O", XReq (VStr "serial I/O") 1 2 3 4 7)] /\ x_resmodel t' = Some [(VStr "serial I/O", XReq (VStr "serial I/O") 1 2 3 4 0)] /\
  x_affinity t = Some [] /\ x_affinity t' = None.
Proof. exists lossy_task. eexists. repeat split; vm_compute; reflexivity. Qed.
Print Assumptions C33_lossy_refuted.

(** ** Examples *)
Definition full_task : xtask :=
  XTask (VInt 5) (VInt 19) (VInt 15) (VStr "video") (Some (VInt 2)) None (Some (VInt 1024))
    (Some [(VInt 1, XReq (VInt 1) 1 2 0 0 0); (VStr "serial I/O", XReq (VStr "serial I/O") 0 0 3 4 0)]) (Some [VInt 0; VInt 3])
    (Some [XCS (VInt 1) (VInt 2) [XCS (VInt 2) (VInt 1) []; XCS (VInt 3) (VInt 1) [XCS (VInt 2) (VInt 4) []]]]).

Example C33_example : plain_task full_task /\ measurable full_task /\ load (task_elem full_task) = LTask full_task /\
  (exists e, taskset_elem (fun _ => "0.26"%string) [full_task; lossy_task] = Some e /\
     el_attrs (hd e (el_kids e)) = [("utilization", "0.26"); ("utilization_q", "63/95"); ("density_q", "5/6"); ("density", "0.26"); ("count", "2"); ("hyperperiod", "95")]%string) /\
  name_like "serial I/O" = true /\ name_like "inf" = false /\ name_like "007" = false.
Proof.
  split; [|split; [exists 5, 19, 15; repeat split; cbn; lia|split; [vm_compute; reflexivity|split; [eexists; split; vm_compute; reflexivity|repeat split; reflexivity]]]].
  constructor; cbn [full_task x_cost x_period x_deadline x_id x_partition x_wss x_resmodel x_affinity x_cs plain plain_opt]; try (apply small_binary64; vm_compute; discriminate); try reflexivity.
  - right. reflexivity.
  - intros l E. inversion E; subst. split; [cbn [map fst]; repeat constructor; cbn; intuition discriminate|].
    intros k r [X|[X|[]]]; inversion X; subst; (split; [reflexivity|]); [apply small_binary64; vm_compute; discriminate|reflexivity].
  - intros l E. inversion E; subst. split; [repeat constructor; cbn; intuition discriminate|]. intros v [<-|[<-|[]]]; apply small_binary64; vm_compute; discriminate.
  - intros l E. inversion E; subst. intros c [<-|[]]. 
    assert (P : forall z, Z.abs z <= 10 -> plain (VInt z)) by (intros z Hz; apply small_binary64; assert (10 <= 2 ^ 53) by (vm_compute; discriminate); lia).
    constructor; [apply P; lia|apply P; lia|intros []|]. intros c [<-|[<-|[]]].
    + constructor; [apply P; lia|apply P; lia|cbn; intuition discriminate|intros c []].
    + constructor; [apply P; lia|apply P; lia|cbn; intuition discriminate|]. intros c [<-|[]].
      constructor; [apply P; lia|apply P; lia|cbn; intuition discriminate|intros c []].
Qed.
