(** Proofs about group lock requirements and about the iteration over nested
    critical sections. *)
From Coq Require Import ZArith List Bool Arith Relations Lia Sorted Permutation.
From Verif Require Import ModelResources SpecResources ProofResources.
Import ListNotations.
Local Open Scope nat_scope.

Lemma fold_min_le l : forall x, fold_left Nat.min l x <= x /\ (forall y, In y l -> fold_left Nat.min l x <= y).
Proof.
  induction l as [|z t IH]; intros x; cbn [fold_left]; [split; [lia|intros y []]|].
  destruct (IH (Nat.min x z)) as [A B]. split; [lia|]. intros y [<-|H]; [lia|apply B; exact H].
Qed.

Lemma fold_min_in l : forall x, fold_left Nat.min l x = x \/ In (fold_left Nat.min l x) l.
Proof.
  induction l as [|z t IH]; intros x; cbn [fold_left]; [left; reflexivity|].
  destruct (IH (Nat.min x z)) as [A|A]; [|right; right; exact A]. rewrite A.
  destruct (Nat.min_spec x z) as [[_ ->]|[_ ->]]; [left; reflexivity|right; left; reflexivity].
Qed.

Lemma set_min_spec l m : set_min l = Some m -> In m l /\ forall y, In y l -> m <= y.
Proof.
  destruct l as [|x t]; [discriminate|]. intros H. injection H as <-. destruct (fold_min_le t x) as [A B]. split.
  - destruct (fold_min_in t x) as [->|H]; [left; reflexivity|right; exact H].
  - intros y [<-|H]; [exact A|apply B; exact H].
Qed.

Lemma group_id_spec tasks : exists st, identify_group_locks tasks = Some st /\
  forall r, requested tasks r -> exists g, group_id st r = Some g /\ same_group tasks r g /\ forall s, same_group tasks r s -> g <= s.
Proof.
  destruct (identify_spec tasks) as [st [S [V [Q _]]]]. exists st. split; [exact S|]. intros r Hr.
  apply V in Hr. destruct Hr as [p L]. unfold group_id. rewrite L.
  destruct (set_min (nth p (g_heap st) [])) as [g|] eqn:M.
  - exists g. split; [reflexivity|]. apply set_min_spec in M. destruct M as [M1 M2]. split.
    + apply (Q r p L). exact M1.
    + intros s Hs. apply M2. apply (Q r p L). exact Hs.
  - exfalso. assert (H : In r (nth p (g_heap st) [])) by (apply (Q r p L), rst_refl).
    destruct (nth p (g_heap st) []); [destruct H|discriminate].
Qed.

Lemma get_set_req m : forall k r j, get_req (set_req m k r) j = if Nat.eqb k j then r else get_req m j.
Proof.
  induction m as [|[a b] t IH]; intros k r j; unfold get_req; cbn [set_req find fst snd].
  - destruct (Nat.eqb k j); reflexivity.
  - destruct (Nat.eqb_spec a k) as [->|D]; cbn [find fst snd].
    + destruct (Nat.eqb_spec k j); reflexivity.
    + destruct (Nat.eqb_spec a j) as [->|D2].
      * destruct (Nat.eqb_spec k j) as [->|]; [contradiction|reflexivity].
      * specialize (IH k r j). unfold get_req in IH. exact IH.
Qed.

Definition zmax0 (l : list Z) : Z := fold_right Z.max 0%Z l.

Lemma group_model_spec st (rep : nat -> nat) f : (forall c, In c f -> group_id st (cs_res c) = Some (rep (cs_res c))) ->
  forall m, exists m', group_model st f m = Some m' /\ forall g,
    let mine := filter (fun c => Nat.eqb (rep (cs_res c)) g) f in
    rr_writes (get_req m' g) = (rr_writes (get_req m g) + Z.of_nat (length mine))%Z /\
    rr_wlen (get_req m' g) = fold_left Z.max (map cs_total mine) (rr_wlen (get_req m g)) /\
    rr_reads (get_req m' g) = rr_reads (get_req m g) /\
    rr_rlen (get_req m' g) = rr_rlen (get_req m g) /\ rr_id (get_req m' g) = rr_id (get_req m g) /\
    ((rr_prio (get_req m g) <= 0)%Z -> rr_prio (get_req m' g) = rr_prio (get_req m g)).
Proof.
  induction f as [|c t IH]; intros H m.
  - exists m. split; [reflexivity|]. intros g. cbn. repeat split; lia.
  - cbn [group_model]. rewrite (H c (or_introl eq_refl)).
    destruct (IH (fun x h => H x (or_intror h)) (set_req m (rep (cs_res c)) (add_request (get_req m (rep (cs_res c))) (cs_total c) false 0)))
      as [m' [E S]]. exists m'. split; [exact E|]. intros g. specialize (S g). cbv zeta in S |- *.
    rewrite get_set_req in S. cbn [filter]. destruct (Nat.eqb_spec (rep (cs_res c)) g) as [E'|D].
    + rewrite E' in *. destruct S as [S1 [S2 [S3 [S4 [S5 S6]]]]]. unfold add_request in *. cbn [rr_writes rr_reads rr_wlen rr_rlen rr_prio rr_id] in *.
      cbn [length map fold_left]. rewrite S1, S2, S3, S4, S5. repeat split; try lia.
    + exact S.
Qed.

Lemma fold_max0 l : forall a, (0 <= a)%Z -> fold_left Z.max l a = Z.max a (zmax0 l).
Proof.
  induction l as [|x t IH]; intros a P; unfold zmax0 in *; cbn [fold_left fold_right]; [lia|]. rewrite IH by lia. lia.
Qed.

Lemma convert_spec tasks : exists (rep : nat -> nat) models,
  convert_to_group_locks tasks = Some models /\
  (forall r, requested tasks r -> same_group tasks r (rep r) /\ forall s, same_group tasks r s -> rep r <= s) /\
  Forall2 (fun f m => exists reqs, m = Some reqs /\ forall g,
    let mine := filter (fun c => Nat.eqb (rep (cs_res c)) g) f in
    get_req reqs g = Reqt g (Z.of_nat (length mine)) 0 (zmax0 (map cs_total mine)) 0 0) tasks models.
Proof.
  destruct (group_id_spec tasks) as [st [S G]].
  set (rep := fun r => match group_id st r with Some g => g | None => 0 end).
  assert (R : forall r, requested tasks r -> group_id st r = Some (rep r)).
  { intros r Hr. destruct (G r Hr) as [g [E _]]. unfold rep. rewrite E. reflexivity. }
  exists rep. exists (map (fun f => group_model st f []) tasks). unfold convert_to_group_locks. rewrite S. split; [reflexivity|].
  split.
  - intros r Hr. destruct (G r Hr) as [g [E [A B]]]. rewrite (R r Hr) in E. injection E as ->. auto.
  - assert (Hc : forall f, In f tasks -> forall c, In c f -> group_id st (cs_res c) = Some (rep (cs_res c))).
    { intros f Hf c Hc. apply R. exists f, c. split; [exact Hf|]. split; [|reflexivity]. exists c. split; [exact Hc|constructor]. }
    clear R G S. induction tasks as [|f t IH]; constructor; [|apply IH; intros; apply Hc with f0; [right|]; assumption].
    destruct (group_model_spec st rep f (Hc f (or_introl eq_refl)) []) as [m' [E Q]]. exists m'. split; [exact E|].
    intros g. destruct (Q g) as [Q1 [Q2 [Q3 [Q4 [Q5 Q6]]]]]. cbv zeta.
    change (get_req [] g) with (Reqt g 0 0 0 0 0) in *. cbn [rr_writes rr_reads rr_wlen rr_rlen rr_prio rr_id] in *.
    specialize (Q6 (Z.le_refl 0)). destruct (get_req m' g) as [a b c d e h]. cbn [rr_writes rr_reads rr_wlen rr_rlen rr_prio rr_id] in *.
    subst. rewrite fold_max0 by lia. f_equal; try lia.
    assert (0 <= zmax0 (map cs_total (filter (fun c => Nat.eqb (rep (cs_res c)) g) f)))%Z; [|lia].
    unfold zmax0. induction (map cs_total _) as [|x l IHl]; cbn [fold_right]; lia.
Qed.

Lemma within_group tasks f o c : In f tasks -> In o f -> within c o -> same_group tasks (cs_res o) (cs_res c).
Proof.
  intros Hf Ho W. assert (G : forall x, within x o -> within c x -> same_group tasks (cs_res x) (cs_res c)).
  { intros x Wx Wc. revert Wx. induction Wc as [x|z y x H IH Hc]; intros Wx; [apply rst_refl|].
    assert (Wy : within y o) by (apply within_trans_child with x; assumption).
    apply rst_trans with (cs_res y); [|apply IH; assumption].
    apply rst_step. exists f, x, y. split; [exact Hf|]. split; [exists o; auto|auto]. }
  apply G; [constructor|exact W].
Qed.

(** ** iteration *)
Lemma cs_iter_eq r l n : cs_iter (CS r l n) = CS r l n :: cs_all n.
Proof. reflexivity. Qed.

Fixpoint cpaths (c : csec) : list (list nat) :=
  match c with CS _ _ n => [] :: (fix go (i : nat) (ns : list csec) : list (list nat) :=
    match ns with [] => [] | x :: t => map (cons i) (cpaths x) ++ go (S i) t end) 0 n end.
Fixpoint fpaths (i : nat) (ns : list csec) : list (list nat) :=
  match ns with [] => [] | x :: t => map (cons i) (cpaths x) ++ fpaths (S i) t end.

Lemma cpaths_eq r l n : cpaths (CS r l n) = [] :: fpaths 0 n.
Proof. reflexivity. Qed.

Fixpoint go_flat (outer k : Z) (ns : list csec) : list (nat * Z * Z) :=
  match ns with [] => [] | x :: t => flat_from outer k x ++ go_flat outer (k + Z.of_nat (length (cs_iter x))) t end.

Lemma flat_from_eq o i r l n : flat_from o i (CS r l n) = (r, l, o) :: go_flat i (i + 1) n.
Proof.
  cbn [flat_from]. f_equal. generalize (i + 1)%Z. induction n as [|x t IH]; intros k; [reflexivity|].
  cbn [go_flat]. rewrite <- IH. reflexivity.
Qed.

Lemma all_flat_eq f : forall k, all_flat_from k f = go_flat (-1) k f.
Proof. induction f as [|x t IH]; intros k; [reflexivity|]. cbn [all_flat_from go_flat]. rewrite IH. reflexivity. Qed.

Lemma paths_length_list (n : list csec) : (forall x, In x n -> length (cpaths x) = length (cs_iter x)) ->
  forall i, length (fpaths i n) = length (cs_all n).
Proof.
  induction n as [|x t IH]; intros H i; [reflexivity|]. cbn [fpaths]. unfold cs_all. cbn [map concat].
  rewrite !app_length, map_length. f_equal; [apply H; left; reflexivity|apply IH; intros; apply H; right; assumption].
Qed.
Lemma paths_length c : length (cpaths c) = length (cs_iter c).
Proof. induction c as [r l n IH] using csec_ind'. rewrite cpaths_eq, cs_iter_eq. cbn [length]. f_equal. apply paths_length_list. exact IH. Qed.
Lemma fpaths_length n i : length (fpaths i n) = length (cs_all n).
Proof. apply paths_length_list. intros x _. apply paths_length. Qed.

Lemma flat_length_list (n : list csec) : (forall x, In x n -> forall o i, length (flat_from o i x) = length (cs_iter x)) ->
  forall o i, length (go_flat o i n) = length (cs_all n).
Proof.
  induction n as [|x t IH]; intros H o i; [reflexivity|]. cbn [go_flat]. unfold cs_all. cbn [map concat].
  rewrite !app_length. f_equal; [apply H; left; reflexivity|apply IH; intros; apply H; right; assumption].
Qed.
Lemma flat_length c : forall o i, length (flat_from o i c) = length (cs_iter c).
Proof. induction c as [r l n IH] using csec_ind'. intros o i. rewrite flat_from_eq, cs_iter_eq. cbn [length]. f_equal. apply flat_length_list. exact IH. Qed.

Definition entry (paths : list (list nat)) (its : list csec) (k : nat) (e : nat * Z * Z) (q : Z) (p : list nat) : Prop :=
  exists x, nth_error its k = Some x /\ nth_error paths k = Some p /\ e = (cs_res x, cs_len x, q).

Lemma removelast_cons (i : nat) p : p <> [] -> removelast (i :: p) = i :: removelast p.
Proof. destruct p; [congruence|reflexivity]. Qed.

Lemma flat_list_spec (n : list csec) :
  (forall x, In x n -> forall o i k e, nth_error (flat_from o i x) k = Some e ->
     exists q p, entry (cpaths x) (cs_iter x) k e q p /\
       ((p = [] /\ q = o) \/ (p <> [] /\ exists j, j < k /\ nth_error (cpaths x) j = Some (removelast p) /\ q = (i + Z.of_nat j)%Z))) ->
  forall o i b k e, nth_error (go_flat o i n) k = Some e ->
     exists q p, entry (fpaths b n) (cs_all n) k e q p /\
       ((length p = 1 /\ q = o) \/ (1 < length p /\ exists j, j < k /\ nth_error (fpaths b n) j = Some (removelast p) /\ q = (i + Z.of_nat j)%Z)).
Proof.
  induction n as [|x t IH]; intros H o i b k e; cbn [go_flat]; [destruct k; discriminate|].
  unfold cs_all. cbn [map concat fpaths]. intros N.
  destruct (Nat.ltb_spec k (length (cs_iter x))) as [L|L].
  - rewrite nth_error_app1 in N by (rewrite flat_length; exact L).
    destruct (H x (or_introl eq_refl) _ _ _ _ N) as [q [p [[y [E1 [E2 E3]]] C]]]. exists q, (b :: p). split.
    + exists y. split; [rewrite nth_error_app1 by exact L; exact E1|]. split; [|exact E3].
      rewrite nth_error_app1 by (rewrite map_length, paths_length; exact L). apply map_nth_error. exact E2.
    + destruct C as [[-> ->]|[P [j [J1 [J2 ->]]]]]; [left; split; reflexivity|]. right. split.
      { destruct p; [congruence|cbn [length]; lia]. }
      exists j. split; [exact J1|]. split; [|reflexivity].
      rewrite nth_error_app1 by (rewrite map_length, paths_length; lia). rewrite removelast_cons by exact P.
      apply map_nth_error. exact J2.
  - rewrite nth_error_app2 in N by (rewrite flat_length; exact L). rewrite flat_length in N.
    destruct (IH (fun y h => H y (or_intror h)) _ _ (S b) _ _ N) as [q [p [[y [E1 [E2 E3]]] C]]]. exists q, p. split.
    + exists y. split; [rewrite nth_error_app2 by exact L; exact E1|]. split; [|exact E3].
      rewrite nth_error_app2 by (rewrite map_length, paths_length; exact L). rewrite map_length, paths_length. exact E2.
    + destruct C as [C|[P [j [J1 [J2 ->]]]]]; [left; exact C|]. right. split; [exact P|].
      exists (length (cs_iter x) + j). split; [lia|]. split; [|lia].
      rewrite nth_error_app2 by (rewrite map_length, paths_length; lia). rewrite map_length, paths_length.
      replace (length (cs_iter x) + j - length (cs_iter x)) with j by lia. exact J2.
Qed.

Lemma flat_spec x : forall o i k e, nth_error (flat_from o i x) k = Some e ->
     exists q p, entry (cpaths x) (cs_iter x) k e q p /\
       ((p = [] /\ q = o) \/ (p <> [] /\ exists j, j < k /\ nth_error (cpaths x) j = Some (removelast p) /\ q = (i + Z.of_nat j)%Z)).
Proof.
  induction x as [r l n IH] using csec_ind'. intros o i k e. rewrite flat_from_eq, cpaths_eq, cs_iter_eq. destruct k as [|k].
  - cbn [nth_error]. intros N. injection N as <-. exists o, []. split; [|left; auto]. exists (CS r l n). auto.
  - cbn [nth_error]. intros N. destruct (flat_list_spec n IH _ _ 0 _ _ N) as [q [p [[y [E1 [E2 E3]]] C]]].
    exists q, p. split; [exists y; auto|]. right. destruct C as [[P ->]|[P [j [J1 [J2 ->]]]]].
    + split; [destruct p; [discriminate|congruence]|]. exists 0. split; [lia|]. split; [|lia].
      destruct p as [|a [|? ?]]; [discriminate|reflexivity|discriminate].
    + split; [destruct p; [cbn in P; lia|congruence]|]. exists (S j). split; [lia|]. split; [exact J2|lia].
Qed.

(** positions *)
Lemma fpaths_sound n : (forall x, In x n -> forall k p c, nth_error (cpaths x) k = Some p -> nth_error (cs_iter x) k = Some c ->
     (p = [] /\ c = x) \/ (exists held, path_to held (cs_nested x) p c)) ->
  forall b k p c, nth_error (fpaths b n) k = Some p -> nth_error (cs_all n) k = Some c ->
  exists i p' held, p = (b + i) :: p' /\ path_to held n (i :: p') c.
Proof.
  induction n as [|x t IH]; intros H b k p c; cbn [fpaths]; unfold cs_all; cbn [map concat]; [destruct k; discriminate|].
  intros N1 N2. destruct (Nat.ltb_spec k (length (cs_iter x))) as [L|L].
  - rewrite nth_error_app1 in N1 by (rewrite map_length, paths_length; exact L). rewrite nth_error_app1 in N2 by exact L.
    rewrite nth_error_map in N1. destruct (nth_error (cpaths x) k) as [p'|] eqn:N3; [|discriminate]. injection N1 as <-.
    exists 0, p'. destruct (H x (or_introl eq_refl) _ _ _ N3 N2) as [[-> ->]|[held P]].
    + exists []. split; [f_equal; lia|]. constructor. reflexivity.
    + destruct x as [r l m]. exists (r :: held). split; [f_equal; lia|]. apply path_down with l m; [reflexivity|exact P].
  - rewrite nth_error_app2 in N1 by (rewrite map_length, paths_length; exact L). rewrite map_length, paths_length in N1.
    rewrite nth_error_app2 in N2 by exact L.
    destruct (IH (fun y h => H y (or_intror h)) (S b) _ _ _ N1 N2) as [i [p' [held [-> P]]]].
    exists (S i), p', held. split; [f_equal; lia|]. inversion P as [? ? ? Q|? ? ? r l m ? ? Q1 Q2]; subst.
    + constructor. exact Q.
    + apply path_down with l m; [exact Q1|exact Q2].
Qed.
Lemma cpaths_sound x : forall k p c, nth_error (cpaths x) k = Some p -> nth_error (cs_iter x) k = Some c ->
     (p = [] /\ c = x) \/ (exists held, path_to held (cs_nested x) p c).
Proof.
  induction x as [r l n IH] using csec_ind'. intros k p c. rewrite cpaths_eq, cs_iter_eq. destruct k as [|k]; cbn [nth_error].
  - intros H1 H2. injection H1 as <-. injection H2 as <-. left; auto.
  - intros H1 H2. right. destruct (fpaths_sound n IH 0 k p c H1 H2) as [i [p' [held [-> P]]]]. exists held. exact P.
Qed.

Lemma fpaths_complete held n p c : path_to held n p c -> forall b, exists k i p',
  p = i :: p' /\ nth_error (fpaths b n) k = Some ((b + i) :: p') /\ nth_error (cs_all n) k = Some c.
Proof.
  assert (A : forall (n : list csec) i x k q y, nth_error n i = Some x -> nth_error (cpaths x) k = Some q -> nth_error (cs_iter x) k = Some y ->
    forall b, exists k', nth_error (fpaths b n) k' = Some ((b + i) :: q) /\ nth_error (cs_all n) k' = Some y).
  { clear. induction n as [|z t IH]; intros i x k q y N1 N2 N3 b; [destruct i; discriminate|]. unfold cs_all. cbn [fpaths map concat].
    destruct i as [|i]; cbn [nth_error] in N1.
    - injection N1 as ->. assert (L : k < length (cs_iter x)) by (apply nth_error_Some; congruence). exists k.
      rewrite nth_error_app1 by (rewrite map_length, paths_length; exact L). rewrite nth_error_app1 by exact L. split; [|exact N3].
      replace (b + 0) with b by lia. apply map_nth_error. exact N2.
    - destruct (IH i x k q y N1 N2 N3 (S b)) as [k' [K1 K2]]. exists (length (cs_iter z) + k').
      rewrite nth_error_app2 by (rewrite map_length, paths_length; lia). rewrite map_length, paths_length.
      rewrite nth_error_app2 by lia. replace (length (cs_iter z) + k' - length (cs_iter z)) with k' by lia.
      split; [rewrite K1; f_equal; f_equal; lia|exact K2]. }
  intros P. induction P as [f i c N|held f i r l n p x N P IH]; intros b.
  - destruct (A f i c 0 [] c N) with (b := b) as [k [K1 K2]]; [destruct c; reflexivity|destruct c; reflexivity|]. exists k, i, []. auto.
  - destruct (IH 0) as [k [j [p' [-> [K1 K2]]]]]. 
    destruct (A f i _ (S k) (j :: p') x N) with (b := b) as [k' [L1 L2]]; [rewrite cpaths_eq; exact K1|rewrite cs_iter_eq; exact K2|].
    exists k', i, (j :: p'). auto.
Qed.

(** textual order *)
Lemma before_irrefl p : ~ before p p.
Proof. induction p as [|i p IH]; intros H; inversion H; subst; [lia|contradiction]. Qed.

Lemma sorted_app (a b : list (list nat)) : StronglySorted before a -> StronglySorted before b ->
  (forall x y, In x a -> In y b -> before x y) -> StronglySorted before (a ++ b).
Proof.
  induction a as [|x t IH]; intros Ha Hb H; [exact Hb|]. cbn [app]. inversion Ha as [|? ? A1 A2]; subst. constructor.
  - apply IH; [exact A1|exact Hb|intros; apply H; [right|]; assumption].
  - apply Forall_app. split; [exact A2|]. apply Forall_forall. intros y Hy. apply H; [left; reflexivity|exact Hy].
Qed.

Lemma fpaths_head n : forall b p, In p (fpaths b n) -> exists j q, p = j :: q /\ b <= j.
Proof.
  induction n as [|x t IH]; intros b p; cbn [fpaths]; [intros []|]. intros H. apply in_app_iff in H. destruct H as [H|H].
  - apply in_map_iff in H. destruct H as [q [<- _]]. exists b, q. auto.
  - destruct (IH _ _ H) as [j [q [-> L]]]. exists j, q. split; [reflexivity|lia].
Qed.

Lemma fpaths_sorted n : (forall x, In x n -> StronglySorted before (cpaths x)) -> forall b, StronglySorted before (fpaths b n).
Proof.
  induction n as [|x t IH]; intros H b; cbn [fpaths]; [constructor|]. apply sorted_app.
  - specialize (H x (or_introl eq_refl)). induction H as [|p l Hs IHs Hf]; cbn [map]; constructor; [exact IHs|].
    apply Forall_forall. intros y Hy. apply in_map_iff in Hy. destruct Hy as [q [<- Hq]]. apply before_below.
    rewrite Forall_forall in Hf. apply Hf. exact Hq.
  - apply IH. intros; apply H; right; assumption.
  - intros p q Hp Hq. apply in_map_iff in Hp. destruct Hp as [p' [<- _]]. destruct (fpaths_head _ _ _ Hq) as [j [q' [-> L]]].
    apply before_left. lia.
Qed.
Lemma cpaths_sorted x : StronglySorted before (cpaths x).
Proof.
  induction x as [r l n IH] using csec_ind'. rewrite cpaths_eq. constructor; [apply fpaths_sorted; exact IH|].
  apply Forall_forall. intros p Hp. destruct (fpaths_head _ _ _ Hp) as [j [q [-> _]]]. constructor.
Qed.

Lemma iteration_spec f : exists ps, length ps = length (cs_all f) /\ StronglySorted before ps /\
  (forall p c, (exists held, path_to held f p c) <-> exists k, nth_error ps k = Some p /\ nth_error (cs_all f) k = Some c) /\
  length (all_flat f) = length (cs_all f) /\
  (forall k r l o, nth_error (all_flat f) k = Some (r, l, o) -> exists c p,
      nth_error (cs_all f) k = Some c /\ nth_error ps k = Some p /\ r = cs_res c /\ l = cs_len c /\
      ((length p = 1 /\ o = (-1)%Z) \/
       (1 < length p /\ exists j, j < k /\ nth_error ps j = Some (removelast p) /\ o = Z.of_nat j))).
Proof.
  exists (fpaths 0 f). split; [apply fpaths_length|]. split; [apply fpaths_sorted; intros; apply cpaths_sorted|]. split; [|split].
  - intros p c. split.
    + intros [held P]. destruct (fpaths_complete _ _ _ _ P 0) as [k [i [p' [-> [K1 K2]]]]]. exists k. auto.
    + intros [k [K1 K2]]. destruct (fpaths_sound f (fun x _ => cpaths_sound x) 0 k p c K1 K2) as [i [p' [held [-> P]]]]. exists held. exact P.
  - unfold all_flat. rewrite all_flat_eq. apply flat_length_list. intros x _. apply flat_length.
  - intros k r l o N. unfold all_flat in N. rewrite all_flat_eq in N.
    destruct (flat_list_spec f (fun x _ => flat_spec x) _ _ 0 _ _ N) as [q [p [[x [E1 [E2 E3]]] C]]].
    injection E3 as -> -> <-. exists x, p. split; [exact E1|]. split; [exact E2|]. split; [reflexivity|]. split; [reflexivity|].
    destruct C as [C|[P [j [J1 [J2 ->]]]]]; [left; exact C|]. right. split; [exact P|]. exists j. split; [exact J1|]. split; [exact J2|]. lia.
Qed.

(** lengths *)
Definition zsum (l : list Z) : Z := fold_right Z.add 0%Z l.
Lemma zsum_app a b : zsum (a ++ b) = (zsum a + zsum b)%Z.
Proof. unfold zsum. induction a as [|x t IH]; cbn [app fold_right]; lia. Qed.
Lemma fold_add l : forall a, fold_left (fun s x => (s + x)%Z) l a = (a + zsum l)%Z.
Proof. induction l as [|x t IH]; intros a; cbn [fold_left]; [unfold zsum; cbn; lia|]. rewrite IH. unfold zsum. cbn [fold_right]. lia. Qed.

Lemma total_spec c : cs_total c = zsum (map cs_len (cs_iter c)).
Proof.
  induction c as [r l n IH] using csec_ind'. change (cs_total (CS r l n)) with (fold_left (fun s x => (s + x)%Z) (map cs_total n) l).
  rewrite fold_add, cs_iter_eq. cbn [map cs_len]. unfold zsum at 2. cbn [fold_right]. f_equal.
  change (fold_right Z.add 0%Z (map cs_len (cs_all n))) with (zsum (map cs_len (cs_all n))).
  induction n as [|x t IHn]; [reflexivity|]. unfold cs_all. cbn [map concat]. rewrite map_app, zsum_app.
  rewrite <- (IH x (or_introl eq_refl)). unfold cs_all in IHn. rewrite <- IHn; [reflexivity|]. intros y Hy. apply IH. right. exact Hy.
Qed.

(** order of nesting *)
Lemma in_iter c : forall x, In x (cs_iter c) <-> within x c.
Proof.
  induction c as [r l n IH] using csec_ind'. intros x. rewrite cs_iter_eq. unfold cs_all. split.
  - intros [<-|H]; [constructor|]. apply in_concat in H. destruct H as [ls [H1 H2]]. apply in_map_iff in H1.
    destruct H1 as [y [<- Hy]]. apply IH in H2; [|exact Hy]. apply within_step with y; [exact H2|constructor; exact Hy].
  - intros W. inversion W as [|? y ? W1 W2]; subst; [left; reflexivity|]. right. inversion W2; subst.
    apply in_concat. exists (cs_iter y). split; [apply in_map; assumption|]. apply IH; assumption.
Qed.

Lemma in_all f x : In x (cs_all f) <-> occurs x f.
Proof.
  unfold cs_all, occurs. rewrite in_concat. split.
  - intros [ls [H1 H2]]. apply in_map_iff in H1. destruct H1 as [o [<- Ho]]. exists o. split; [exact Ho|apply in_iter; exact H2].
  - intros [o [Ho W]]. exists (cs_iter o). split; [apply in_map; exact Ho|apply in_iter; exact W].
Qed.

Lemma well_ordered_spec f : all_nesting_well_ordered f = true <->
  forall c x, occurs c f -> child x c -> cs_res c < cs_res x.
Proof.
  unfold all_nesting_well_ordered. rewrite forallb_forall. split.
  - intros H c x O C. apply in_all in O. specialize (H c O). unfold nesting_well_ordered in H. rewrite forallb_forall in H.
    inversion C; subst. cbn [cs_nested cs_res] in *. specialize (H x H0). apply negb_true_iff, Nat.leb_gt in H. exact H.
  - intros H c O. apply in_all in O. unfold nesting_well_ordered. apply forallb_forall. intros x Hx.
    apply negb_true_iff, Nat.leb_gt. apply (H c x O). destruct c. constructor. exact Hx.
Qed.

Lemma well_ordered_acyclic tasks : (forall f, In f tasks -> all_nesting_well_ordered f = true) ->
  forall r s, clos_trans nat (requested_inside tasks) r s -> r < s.
Proof.
  intros H r s C. induction C as [r s [f [c [x [Hf [O [C [<- <-]]]]]]]|]; [|lia].
  apply (proj1 (well_ordered_spec f) (H f Hf)); assumption.
Qed.


Lemma occurs_down f i r l n x : nth_error f i = Some (CS r l n) -> occurs x n -> occurs x f.
Proof.
  intros N [o [Ho W]]. exists (CS r l n). split; [apply nth_error_In in N; exact N|].
  apply within_step with o; [exact W|constructor; exact Ho].
Qed.

Lemma path_occurs held f p c : path_to held f p c -> occurs c f.
Proof.
  intros P. induction P as [f i c N|held f i r l n p x N P IH].
  - exists c. split; [apply nth_error_In in N; exact N|constructor].
  - apply occurs_down with i r l n; assumption.
Qed.

Lemma within_le c y : within c y -> (forall a x, within a y -> child x a -> cs_res a < cs_res x) -> cs_res y <= cs_res c.
Proof.
  intros W. induction W as [y|x y z W IH C]; intros H; [lia|].
  assert (cs_res z < cs_res y) by (apply H; [constructor|exact C]).
  assert (cs_res y <= cs_res x); [|lia]. apply IH. intros a b A B. apply H; [apply within_step with y; assumption|exact B].
Qed.

Lemma well_ordered_held held f p c : path_to held f p c -> (forall c x, occurs c f -> child x c -> cs_res c < cs_res x) ->
  forall h, In h held -> h < cs_res c.
Proof.
  intros P. induction P as [f i c N|held f i r l n p x N P IH]; intros W h Hh; [destruct Hh|].
  destruct Hh as [<-|Hh].
  - destruct (path_occurs _ _ _ _ P) as [o [Ho Wo]].
    assert (A : r < cs_res o).
    { apply (W (CS r l n) o); [|constructor; exact Ho]. exists (CS r l n). split; [apply nth_error_In in N; exact N|constructor]. }
    assert (B : cs_res o <= cs_res x); [|lia]. apply within_le; [exact Wo|]. intros a b Ha Hb. apply W; [|exact Hb].
    apply occurs_down with i r l n; [exact N|]. exists o. auto.
  - apply IH; [|exact Hh]. intros a b Ha Hb. apply W; [|exact Hb]. apply occurs_down with i r l n; assumption.
Qed.

Lemma well_ordered_not_reentrant f : all_nesting_well_ordered f = true -> ~ reentrant f.
Proof.
  intros H [held [p [c [P I]]]]. assert (cs_res c < cs_res c); [|lia].
  apply (well_ordered_held held f p c P (proj1 (well_ordered_spec f) H)). exact I.
Qed.

(** construction *)
Inductive clean : list nat -> csec -> Prop :=
| clean_intro : forall outs r l n, ~ In r outs -> (forall x, In x n -> clean (r :: outs) x) -> clean outs (CS r l n).

Lemma reentrant_In r outs : is_reentrant r outs = true <-> In r outs.
Proof.
  induction outs as [|o t IH]; cbn [is_reentrant In]; [split; [discriminate|intros []]|].
  destruct (Nat.eqb_spec o r) as [->|D]; [split; auto|]. rewrite IH. split; [auto|intros [E|H]; [contradiction|exact H]].
Qed.

Lemma clean_path held f p c : path_to held f p c -> forall outs, (forall x, In x f -> clean outs x) -> ~ In (cs_res c) (held ++ outs).
Proof.
  intros P. induction P as [f i c N|held f i r l n p x N P IH]; intros outs H I.
  - apply nth_error_In in N. specialize (H c N). inversion H; subst. cbn [app cs_res] in *. contradiction.
  - apply nth_error_In in N. specialize (H _ N). inversion H as [? ? ? ? H1 H2]; subst.
    apply (IH (r :: outs) H2). rewrite in_app_iff in *. cbn [In app] in *. tauto.
Qed.

Lemma in_replace (i : nat) (n : list csec) x x' y : nth_error n i = Some x -> In y (firstn i n ++ x' :: skipn (S i) n) -> y = x' \/ In y n.
Proof.
  intros N H. apply in_app_iff in H. destruct H as [H|[H|H]]; [|left; auto|].
  - right. rewrite <- (firstn_skipn i n). apply in_app_iff. auto.
  - right. rewrite <- (firstn_skipn (S i) n). apply in_app_iff. auto.
Qed.

Lemma add_clean c : forall outs p r l c', clean outs c -> add_nested_at outs c p r l = Some c' -> clean outs c' /\ cs_res c' = cs_res c.
Proof.
  induction c as [r0 l0 n IH] using csec_ind'. intros outs p r l c' C A. inversion C as [? ? ? ? C1 C2]; subst. cbn [cs_res].
  destruct p as [|i p]; cbn [add_nested_at] in A.
  - destruct (is_reentrant r (r0 :: outs)) eqn:E; [discriminate|]. injection A as <-. split; [|reflexivity]. constructor; [exact C1|].
    intros x Hx. apply in_app_iff in Hx. destruct Hx as [Hx|[<-|[]]]; [apply C2; exact Hx|]. constructor; [|intros x []].
    rewrite <- reentrant_In. congruence.
  - destruct (nth_error n i) as [x|] eqn:N; [|discriminate].
    destruct (add_nested_at (r0 :: outs) x p r l) as [x'|] eqn:E; [|discriminate]. injection A as <-. split; [|reflexivity]. constructor; [exact C1|].
    intros y Hy. destruct (in_replace _ _ _ _ _ N Hy) as [->|Hy']; [|apply C2; exact Hy'].
    apply nth_error_In in N. apply (IH x N _ _ _ _ _ (C2 x N) E).
Qed.

Lemma built_clean f : built f -> forall c, In c f -> clean [] c.
Proof.
  intros B. induction B as [|f r l B IH|f i p r l f' B IH A]; intros c H; [destruct H| |].
  - apply in_app_iff in H. destruct H as [H|[<-|[]]]; [apply IH; exact H|]. constructor; [intros []|intros x []].
  - unfold add_nested in A. destruct (nth_error f i) as [x|] eqn:N; [|discriminate].
    destruct (add_nested_at [] x p r l) as [x'|] eqn:E; [|discriminate]. injection A as <-.
    destruct (in_replace _ _ _ _ _ N H) as [->|H']; [|apply IH; exact H'].
    apply nth_error_In in N. apply (add_clean x _ _ _ _ _ (IH x N) E).
Qed.

Lemma built_not_reentrant f : built f -> ~ reentrant f.
Proof.
  intros B [held [p [c [P I]]]]. apply (clean_path held f p c P []); [apply built_clean; exact B|]. rewrite app_nil_r. exact I.
Qed.

Lemma add_at_cons outs rc lc n i p r l : add_nested_at outs (CS rc lc n) (i :: p) r l =
  match nth_error n i with
  | None => None
  | Some x => match add_nested_at (rc :: outs) x p r l with None => None | Some x' => Some (CS rc lc (firstn i n ++ x' :: skipn (S i) n)) end
  end.
Proof. reflexivity. Qed.

Lemma add_at_none c : forall outs r l, (add_nested_at outs c [] r l = None <-> In r (cs_res c :: outs)).
Proof.
  destruct c as [r0 l0 n]. intros outs r l. cbn [add_nested_at cs_res]. rewrite <- reentrant_In.
  destruct (is_reentrant r (r0 :: outs)); split; congruence.
Qed.

Lemma add_at_none_below held f p x : path_to held f p x -> forall c i q, cs_nested c = f -> p = i :: q -> forall outs r l,
  (add_nested_at outs c p r l = None <-> In r (held ++ [cs_res x]) \/ In r (cs_res c :: outs)).
Proof.
  intros P. induction P as [f i x N|held f i r0 l0 n p x N P IH]; intros c j q E1 E2 outs r l; destruct c as [rc lc nc];
    cbn [cs_nested] in E1; subst nc; rewrite add_at_cons, N; cbn [cs_res].
  - pose proof (add_at_none x (rc :: outs) r l) as A. destruct (add_nested_at (rc :: outs) x [] r l); cbn [In app] in *.
    + split; [discriminate|]. intros H. exfalso. assert (F : Some c = None) by (apply A; tauto). discriminate.
    + split; [|reflexivity]. intros _. assert (T : @None csec = None) by reflexivity. apply A in T. tauto.
  - destruct p as [|i' p']; [inversion P|].
    pose proof (IH (CS r0 l0 n) i' p' eq_refl eq_refl (rc :: outs) r l) as A. cbn [cs_res] in A.
    destruct (add_nested_at (rc :: outs) (CS r0 l0 n) (i' :: p') r l) as [y|]; cbn [In app] in *.
    + split; [discriminate|]. intros H. exfalso. assert (F : Some y = None) by (apply A; tauto). discriminate.
    + split; [|reflexivity]. intros _. assert (T : @None csec = None) by reflexivity. apply A in T. tauto.
Qed.

Lemma add_none held f i p c r l : path_to held f (i :: p) c -> (add_nested f i p r l = None <-> In r (held ++ [cs_res c])).
Proof.
  intros P. unfold add_nested. inversion P as [? ? ? N|held' ? ? r0 l0 n ? ? N P']; subst; rewrite N.
  - pose proof (add_at_none c [] r l) as A. destruct (add_nested_at [] c [] r l); cbn [app]; [split; [discriminate|]|split; [|reflexivity]].
    + intros H. apply (proj2 A) in H. discriminate.
    + intros _. apply (proj1 A). reflexivity.
  - destruct p as [|j q]; [inversion P'|]. pose proof (add_at_none_below _ _ _ _ P' (CS r0 l0 n) j q eq_refl eq_refl [] r l) as A. cbn [cs_res] in A.
    destruct (add_nested_at [] (CS r0 l0 n) (j :: q) r l) as [y|]; cbn [app In] in *.
    + split; [discriminate|]. intros H. exfalso. assert (F : Some y = None) by (apply A; tauto). discriminate.
    + split; [|reflexivity]. intros _. assert (T : @None csec = None) by reflexivity. apply A in T. tauto.
Qed.

Definition label (c : csec) : nat * Z := (cs_res c, cs_len c).

Lemma labels_replace (n : list csec) i x x' e : nth_error n i = Some x ->
  Permutation (map label (cs_iter x')) (e :: map label (cs_iter x)) ->
  Permutation (map label (cs_all (firstn i n ++ x' :: skipn (S i) n))) (e :: map label (cs_all n)).
Proof.
  intros N P. destruct (nth_error_split n i N) as [a [b [-> L]]]. subst i.
  rewrite firstn_app, Nat.sub_diag, firstn_all, app_nil_r.
  assert (K : skipn (S (length a)) (a ++ x :: b) = b).
  { clear N. induction a as [|y a IH]; [reflexivity|]. cbn [length app]. cbn [skipn]. exact IH. }
  rewrite K.
  unfold cs_all. rewrite !map_app, !concat_app, !map_app. cbn [map concat]. rewrite !map_app.
  rewrite P. cbn [app]. symmetry. apply Permutation_middle.
Qed.

Lemma add_labels c : forall outs p r l c', add_nested_at outs c p r l = Some c' ->
  Permutation (map label (cs_iter c')) ((r, l) :: map label (cs_iter c)).
Proof.
  induction c as [r0 l0 n IH] using csec_ind'. intros outs p r l c' A. destruct p as [|i p]; cbn [add_nested_at] in A.
  - destruct (is_reentrant r (r0 :: outs)); [discriminate|]. injection A as <-. rewrite !cs_iter_eq. cbn [map]. unfold label at 1 3. cbn [cs_res cs_len].
    unfold cs_all. rewrite map_app, concat_app, map_app. cbn [map concat cs_iter app]. unfold label at 2. cbn [cs_res cs_len].
    rewrite perm_swap. constructor. symmetry. apply Permutation_cons_append.
  - destruct (nth_error n i) as [x|] eqn:N; [|discriminate].
    destruct (add_nested_at (r0 :: outs) x p r l) as [x'|] eqn:E; [|discriminate]. injection A as <-.
    rewrite !cs_iter_eq. cbn [map]. unfold label at 1 3. cbn [cs_res cs_len]. rewrite perm_swap. constructor.
    apply labels_replace with x; [exact N|]. apply (IH x (nth_error_In _ _ N) _ _ _ _ _ E).
Qed.

Lemma add_forest_labels f i p r l f' : add_nested f i p r l = Some f' ->
  Permutation (map label (cs_all f')) ((r, l) :: map label (cs_all f)).
Proof.
  unfold add_nested. destruct (nth_error f i) as [x|] eqn:N; [|discriminate].
  destruct (add_nested_at [] x p r l) as [x'|] eqn:E; [|discriminate]. intros A. injection A as <-.
  apply labels_replace with x; [exact N|]. apply add_labels with [] p. exact E.
Qed.

Lemma nth_replace (n : list csec) i x x' : nth_error n i = Some x -> nth_error (firstn i n ++ x' :: skipn (S i) n) i = Some x'.
Proof.
  intros N. assert (L : i < length n) by (apply nth_error_Some; congruence).
  rewrite nth_error_app2 by (rewrite firstn_length; lia). rewrite firstn_length. replace (i - Nat.min i (length n)) with 0 by lia. reflexivity.
Qed.

Lemma add_at_position c : forall outs r l c', add_nested_at outs c [] r l = Some c' ->
  cs_res c' = cs_res c /\ nth_error (cs_nested c') (length (cs_nested c)) = Some (CS r l []).
Proof.
  destruct c as [r0 l0 n]. intros outs r l c'. cbn [add_nested_at cs_res cs_nested]. destruct (is_reentrant _ _); [discriminate|].
  intros A. injection A as <-. split; [reflexivity|]. cbn [cs_nested]. rewrite nth_error_app2 by lia. rewrite Nat.sub_diag. reflexivity.
Qed.

Lemma add_below_position held f p x : path_to held f p x -> forall c i q, cs_nested c = f -> p = i :: q -> forall outs r l c',
  add_nested_at outs c p r l = Some c' -> cs_res c' = cs_res c /\ path_to (held ++ [cs_res x]) (cs_nested c') (p ++ [length (cs_nested x)]) (CS r l []).
Proof.
  intros P. induction P as [f i x N|held f i r0 l0 n p x N P IH]; intros c j q E1 E2 outs r l c'; destruct c as [rc lc nc];
    cbn [cs_nested] in E1; subst nc; rewrite add_at_cons, N; cbn [cs_res].
  - destruct (add_nested_at (rc :: outs) x [] r l) as [x'|] eqn:A; [|discriminate]. intros E. injection E as <-. split; [reflexivity|].
    apply add_at_position in A. destruct A as [A1 A2]. cbn [cs_nested app]. rewrite <- A1. destruct x' as [r1 l1 n1]. cbn [cs_res cs_nested] in *.
    apply path_down with l1 n1; [apply nth_replace with x; exact N|]. constructor. exact A2.
  - destruct p as [|i' p']; [inversion P|].
    destruct (add_nested_at (rc :: outs) (CS r0 l0 n) (i' :: p') r l) as [x'|] eqn:A; [|discriminate]. intros E. injection E as <-. split; [reflexivity|].
    destruct (IH (CS r0 l0 n) i' p' eq_refl eq_refl _ _ _ _ A) as [A1 A2]. cbn [cs_res cs_nested] in *. destruct x' as [r1 l1 n1]. cbn [cs_res cs_nested] in *. subst r1.
    cbn [app]. apply path_down with l1 n1; [apply nth_replace with (CS r0 l0 n); exact N|exact A2].
Qed.

Lemma add_position held f i p c r l f' : path_to held f (i :: p) c -> add_nested f i p r l = Some f' ->
  path_to (held ++ [cs_res c]) f' ((i :: p) ++ [length (cs_nested c)]) (CS r l []).
Proof.
  intros P. unfold add_nested. inversion P as [? ? ? N|held' ? ? r0 l0 n ? ? N P']; subst; rewrite N.
  - destruct (add_nested_at [] c [] r l) as [x'|] eqn:A; [|discriminate]. intros E. injection E as <-.
    apply add_at_position in A. destruct A as [A1 A2]. cbn [app]. rewrite <- A1. destruct x' as [r1 l1 n1]. cbn [cs_res cs_nested] in *.
    apply path_down with l1 n1; [apply nth_replace with c; exact N|]. constructor. exact A2.
  - destruct p as [|j q]; [inversion P'|]. destruct (add_nested_at [] (CS r0 l0 n) (j :: q) r l) as [x'|] eqn:A; [|discriminate]. intros E. injection E as <-.
    destruct (add_below_position _ _ _ _ P' (CS r0 l0 n) j q eq_refl eq_refl _ _ _ _ A) as [A1 A2]. cbn [cs_res cs_nested] in *. destruct x' as [r1 l1 n1]. cbn [cs_res cs_nested] in *. subst r1.
    cbn [app]. apply path_down with l1 n1; [apply nth_replace with (CS r0 l0 n); exact N|exact A2].
Qed.
