(** The greedy count with limits per request bound, per task, per cluster and
    overall: it covers every selection and is attained. *)
From Coq Require Import NArith ZArith List Bool Sorted Permutation Lia Arith.
From Verif Require Import ModelLocking ModelResources ModelRW SpecLocking SpecRW ProofLocking ProofSpin.
Import ListNotations.
Open Scope N_scope.

Definition cnt {A} (p : A -> bool) (l : list A) : N := N.of_nat (length (filter p l)).

Lemma cnt_app {A} (p : A -> bool) l l' : cnt p (l ++ l') = cnt p l + cnt p l'.
Proof. unfold cnt. rewrite filter_app, app_length. lia. Qed.
Lemma cnt_perm {A} (p : A -> bool) l l' : Permutation l l' -> cnt p l = cnt p l'.
Proof.
  intros H. unfold cnt. f_equal. induction H as [|x l l' H IH|x y l|l l' l'' H1 IH1 H2 IH2]; cbn [filter]; [reflexivity| | |congruence].
  - destruct (p x); cbn [length]; congruence.
  - destruct (p x), (p y); reflexivity.
Qed.
Lemma cnt_le {A} (p : A -> bool) l : cnt p l <= N.of_nat (length l).
Proof. unfold cnt. induction l as [|a l IH]; [cbn; lia|]. cbn [filter length]. destruct (p a); cbn [length]; lia. Qed.
Lemma cnt_filter_le {A} (p q : A -> bool) l : cnt p (filter q l) <= cnt p l.
Proof. unfold cnt. induction l as [|a l IH]; [cbn; lia|]. cbn [filter]. destruct (q a); cbn [filter]; destruct (p a); cbn [length]; lia. Qed.
Lemma cnt_repeat {A} (p : A -> bool) x n : cnt p (repeat x n) = if p x then N.of_nat n else 0.
Proof. unfold cnt. induction n as [|n IH]; cbn [repeat filter]; [destruct (p x); reflexivity|]. destruct (p x); cbn [length]; [lia|exact IH]. Qed.

Lemma partition_perm {A} (p : A -> bool) l : Permutation l (filter p l ++ filter (fun a => negb (p a)) l).
Proof.
  induction l as [|a l IH]; [constructor|]. cbn [filter]. destruct (p a); cbn [negb].
  - cbn [app]. constructor. exact IH.
  - apply Permutation_cons_app. exact IH.
Qed.

Lemma cnt_skipn {A} (p : A -> bool) l n : cnt p (skipn n l) <= cnt p l.
Proof. rewrite <- (firstn_skipn n l) at 2. rewrite cnt_app. lia. Qed.

Lemma cnt_all {A} (p : A -> bool) l : (forall a, In a l -> p a = true) -> cnt p l = N.of_nat (length l).
Proof. intros H. unfold cnt. induction l as [|a l IH]; [reflexivity|]. cbn [filter]. rewrite (H a (or_introl eq_refl)). cbn [length]. specialize (IH (fun b Hb => H b (or_intror Hb))). lia. Qed.

Lemma cnt_none {A} (p : A -> bool) l : (forall a, In a l -> p a = false) -> cnt p l = 0.
Proof. intros H. unfold cnt. induction l as [|a l IH]; [reflexivity|]. cbn [filter]. rewrite (H a (or_introl eq_refl)). apply IH. intros b Hb. apply H. right. exact Hb. Qed.

(** give up [n] elements, those of the smallest class first *)
Lemma give_up {A} (p1 p2 : A -> bool) l n : (forall a, In a l -> p1 a = true -> p2 a = true) ->
  exists l1 l2, Permutation l (l1 ++ l2) /\ (length l1 <= n)%nat /\ (length l2 <= length l - n)%nat /\
    cnt p1 l2 <= cnt p1 l - N.of_nat n /\ cnt p2 l2 <= cnt p2 l - N.of_nat n.
Proof.
  intros H. set (A1 := filter p1 l). set (R := filter (fun a => negb (p1 a)) l). set (A2 := filter p2 R). set (A3 := filter (fun a => negb (p2 a)) R).
  assert (P : Permutation l (A1 ++ A2 ++ A3)).
  { etransitivity; [apply (partition_perm p1)|]. apply Permutation_app_head. apply (partition_perm p2). }
  exists (firstn n (A1 ++ A2 ++ A3)), (skipn n (A1 ++ A2 ++ A3)). rewrite firstn_skipn.
  assert (I1 : forall a, In a A1 -> p1 a = true /\ p2 a = true) by (intros a Ha; apply filter_In in Ha; destruct Ha as [Ia Pa]; auto).
  assert (I2 : forall a, In a A2 -> p1 a = false /\ p2 a = true).
  { intros a Ha. apply filter_In in Ha. destruct Ha as [Ia Pa]. apply filter_In in Ia. destruct Ia as [_ Na]. apply negb_true_iff in Na. auto. }
  assert (I3 : forall a, In a A3 -> p1 a = false /\ p2 a = false).
  { intros a Ha. apply filter_In in Ha. destruct Ha as [Ia Pa]. apply filter_In in Ia. destruct Ia as [_ Na]. apply negb_true_iff in Na, Pa. auto. }
  split; [exact P|]. split; [apply firstn_le_length|]. split; [rewrite skipn_length, (Permutation_length P); lia|].
  assert (S : skipn n (A1 ++ A2 ++ A3) = skipn n A1 ++ skipn (n - length A1) A2 ++ skipn (n - length A1 - length A2) A3) by (rewrite !skipn_app; reflexivity).
  rewrite S, !cnt_app, (cnt_perm p1 _ _ P), (cnt_perm p2 _ _ P), !cnt_app.
  assert (SK : forall (L : list A) m a, In a (skipn m L) -> In a L) by (intros L m a Ha; rewrite <- (firstn_skipn m L); apply in_or_app; right; exact Ha).
  rewrite (cnt_none p1 A2), (cnt_none p1 A3), (cnt_none p2 A3), (cnt_none p1 (skipn _ A2)), (cnt_none p1 (skipn _ A3)), (cnt_none p2 (skipn _ A3));
    try (intros a Ha; try (apply SK in Ha); first [apply (I2 a Ha)|apply (I3 a Ha)]).
  rewrite (cnt_all p1 A1), (cnt_all p2 A1), (cnt_all p2 A2), (cnt_all p1 (skipn _ A1)), (cnt_all p2 (skipn _ A1)), (cnt_all p2 (skipn _ A2));
    try (intros a Ha; try (apply SK in Ha); first [apply (I1 a Ha)|apply (I2 a Ha)]).
  rewrite !skipn_length. split; lia.
Qed.

Lemma total_length_app a b : total_length (a ++ b) = total_length a + total_length b.
Proof. unfold total_length. induction a as [|x a IH]; [reflexivity|]. cbn [app fold_right]. rewrite IH. lia. Qed.
Lemma total_length_perm a b : Permutation a b -> total_length a = total_length b.
Proof. induction 1 as [|x l l' H IH|x y l|l l' l'' H1 IH1 H2 IH2]; unfold total_length in *; cbn [fold_right]; lia. Qed.

Section Laminar.
Variables (T C : nat -> nat).

Fixpoint lgreedy (src : list (nat * N * N)) (tc cc : nat -> N) (mt : N) : interf :=
  match src with
  | [] => inter0
  | p :: r =>
    let n := N.min (savail p) (N.min (N.min (tc (T (skey p))) (cc (C (skey p)))) mt) in
    iadd (Inter n (n * slen p)) (lgreedy r (set_counter tc (T (skey p)) (tc (T (skey p)) - n)) (set_counter cc (C (skey p)) (cc (C (skey p)) - n)) (mt - n))
  end.

Definition inT i (p : nat * N) : bool := Nat.eqb (T (fst p)) i.
Definition inC c (p : nat * N) : bool := Nat.eqb (C (fst p)) c.

Theorem lgreedy_safe src : NoDup (map skey src) -> decreasing src -> (forall p q, In p src -> In q src -> T (skey p) = T (skey q) -> C (skey p) = C (skey q)) -> forall tc cc mt sel,
  (forall k l, In (k, l) sel -> exists p, In p src /\ skey p = k /\ l <= slen p) ->
  (forall p, In p src -> occurrences (skey p) sel <= savail p) ->
  (forall i, cnt (inT i) sel <= tc i) -> (forall c, cnt (inC c) sel <= cc c) -> N.of_nat (length sel) <= mt ->
  total_length sel <= i_len (lgreedy src tc cc mt) /\ N.of_nat (length sel) <= i_count (lgreedy src tc cc mt).
Proof.
  induction src as [|p r IH]; intros ND SD LAM tc cc mt sel H1 H2 H3 H4 H5.
  - destruct sel as [|[k l] s]; [split; reflexivity|]. destruct (H1 k l (or_introl eq_refl)) as [q [[] _]].
  - inversion ND as [|x y NI ND']; subst. inversion SD as [|x y SD' FA]; subst. rewrite Forall_forall in FA.
    destruct (key_split (skey p) sel) as [TL LL].
    set (c := length (with_key (skey p) sel)) in *. set (rest := without_key (skey p) sel) in *.
    cbn [lgreedy]. set (n := N.min (savail p) (N.min (N.min (tc (T (skey p))) (cc (C (skey p)))) mt)).
    assert (PS : forall q : nat * N -> bool, cnt q sel = cnt q (with_key (skey p) sel) + cnt q rest).
    { intros q. rewrite <- cnt_app. apply cnt_perm. apply (partition_perm (fun x => Nat.eqb (fst x) (skey p))). }
    assert (WI : forall x, In x (with_key (skey p) sel) -> fst x = skey p /\ In x sel).
    { intros x Hx. apply filter_In in Hx. destruct Hx as [Hx E]. apply Nat.eqb_eq in E. auto. }
    assert (WT : cnt (inT (T (skey p))) (with_key (skey p) sel) = N.of_nat c).
    { apply cnt_all. intros x Hx. destruct (WI x Hx) as [E _]. unfold inT. rewrite E. apply Nat.eqb_refl. }
    assert (WC : cnt (inC (C (skey p))) (with_key (skey p) sel) = N.of_nat c).
    { apply cnt_all. intros x Hx. destruct (WI x Hx) as [E _]. unfold inC. rewrite E. apply Nat.eqb_refl. }
    pose proof (PS (inT (T (skey p)))) as PT. pose proof (PS (inC (C (skey p)))) as PC.
    pose proof (H3 (T (skey p))) as H3p. pose proof (H4 (C (skey p))) as H4p.
    assert (Hc : N.of_nat c <= n).
    { specialize (H2 p (or_introl eq_refl)). rewrite occurrences_with in H2. fold c in H2. unfold n. lia. }
    assert (RI : forall k l, In (k, l) rest -> exists q, In q r /\ skey q = k /\ l <= slen q).
    { intros k l Hin. apply filter_In in Hin. destruct Hin as [Hin Hk]. cbn [fst] in Hk. destruct (H1 k l Hin) as [q [Hq [E Hl]]].
      destruct Hq as [<-|Hq]; [rewrite <- E, Nat.eqb_refl in Hk; discriminate|]. exists q. auto. }
    destruct (give_up (inT (T (skey p))) (inC (C (skey p))) rest (N.to_nat n - c)) as [l1 [l2 [P [L1 [L2 [C1 C2]]]]]].
    { intros [k l] Hin E. unfold inT, inC in *. cbn [fst] in *. apply Nat.eqb_eq in E. apply Nat.eqb_eq. destruct (RI k l Hin) as [q [Hq [<- _]]]. apply LAM; [right; exact Hq|left; reflexivity|exact E]. }
    assert (I2 : forall x, In x l2 -> In x rest) by (intros x Hx; apply (Permutation_in _ (Permutation_sym P)); apply in_or_app; right; exact Hx).
    assert (I1 : forall x, In x l1 -> In x rest) by (intros x Hx; apply (Permutation_in _ (Permutation_sym P)); apply in_or_app; left; exact Hx).
    assert (CT : forall q, cnt q l2 <= cnt q rest) by (intros q; rewrite (cnt_perm q _ _ P), cnt_app; lia).
    destruct (IH ND' SD' (fun a b Ha Hb => LAM a b (or_intror Ha) (or_intror Hb)) (set_counter tc (T (skey p)) (tc (T (skey p)) - n)) (set_counter cc (C (skey p)) (cc (C (skey p)) - n)) (mt - n) l2) as [A B].
    + intros k l Hin. apply RI, I2, Hin.
    + intros q Hq. etransitivity; [|apply (H2 q (or_intror Hq))]. unfold occurrences. fold (cnt (fun p0 : nat * N => Nat.eqb (fst p0) (skey q)) l2). fold (cnt (fun p0 : nat * N => Nat.eqb (fst p0) (skey q)) sel).
      rewrite (PS (fun p0 : nat * N => Nat.eqb (fst p0) (skey q))). pose proof (CT (fun p0 : nat * N => Nat.eqb (fst p0) (skey q))). lia.
    + intros i. unfold set_counter. destruct (Nat.eqb_spec i (T (skey p))) as [->|E]; [lia|]. etransitivity; [|apply (H3 i)]. rewrite (PS (inT i)). specialize (CT (inT i)). lia.
    + intros i. unfold set_counter. destruct (Nat.eqb_spec i (C (skey p))) as [->|E]; [lia|]. etransitivity; [|apply (H4 i)]. rewrite (PS (inC i)). specialize (CT (inC i)). lia.
    + lia.
    + assert (WL : total_length (with_key (skey p) sel) <= N.of_nat c * slen p).
      { apply total_length_bound. intros [k l] Hin. destruct (WI _ Hin) as [E1 E2]. cbn [fst snd] in *. destruct (H1 k l E2) as [q [Hq [E Hl]]].
        destruct Hq as [<-|Hq]; [exact Hl|]. specialize (FA q Hq). lia. }
      assert (L1L : total_length l1 <= N.of_nat (length l1) * slen p).
      { apply total_length_bound. intros [k l] Hin. destruct (RI k l (I1 _ Hin)) as [q [Hq [E Hl]]]. cbn [snd]. specialize (FA q Hq). lia. }
      assert (RL : total_length rest = total_length l1 + total_length l2) by (rewrite (total_length_perm _ _ P); apply total_length_app).
      assert (RN : length rest = (length l1 + length l2)%nat) by (rewrite (Permutation_length P); apply app_length).
      unfold iadd; cbn [i_len i_count]. assert (N.of_nat (length l1) <= n - N.of_nat c) by lia. split; [nia|lia].
Qed.

Fixpoint lsel (src : list (nat * N * N)) (tc cc : nat -> N) (mt : N) : list (nat * N) :=
  match src with
  | [] => []
  | p :: r =>
    let n := N.min (savail p) (N.min (N.min (tc (T (skey p))) (cc (C (skey p)))) mt) in
    repeat (skey p, slen p) (N.to_nat n) ++ lsel r (set_counter tc (T (skey p)) (tc (T (skey p)) - n)) (set_counter cc (C (skey p)) (cc (C (skey p)) - n)) (mt - n)
  end.

Lemma lsel_in src : forall tc cc mt k l, In (k, l) (lsel src tc cc mt) -> exists p, In p src /\ skey p = k /\ slen p = l /\ 0 < savail p.
Proof.
  induction src as [|p r IH]; intros tc cc mt k l H; [destruct H|]. cbn [lsel] in H. apply in_app_or in H. destruct H as [H|H].
  - exists p. pose proof (repeat_spec _ _ _ H) as E. injection E as -> ->. repeat split; [left; reflexivity|]. destruct (N.eq_dec (savail p) 0) as [Z|Z]; [|lia]. rewrite Z, N.min_0_l in H. cbn in H. destruct H.
  - destruct (IH _ _ _ _ _ H) as [q [A B]]. exists q. split; [right; exact A|exact B].
Qed.

Theorem lsel_spec src : NoDup (map skey src) -> forall tc cc mt, let sel := lsel src tc cc mt in
  total_length sel = i_len (lgreedy src tc cc mt) /\ N.of_nat (length sel) = i_count (lgreedy src tc cc mt) /\
  (forall p, In p src -> occurrences (skey p) sel <= savail p) /\ (forall i, cnt (inT i) sel <= tc i) /\ (forall c, cnt (inC c) sel <= cc c) /\ N.of_nat (length sel) <= mt.
Proof.
  induction src as [|p r IH]; intros ND tc cc mt; cbv zeta.
  - cbn. repeat split; intros; unfold cnt; cbn; try lia; try contradiction.
  - inversion ND as [|x y NI ND']; subst. cbn [lsel lgreedy]. set (n := N.min (savail p) (N.min (N.min (tc (T (skey p))) (cc (C (skey p)))) mt)).
    specialize (IH ND' (set_counter tc (T (skey p)) (tc (T (skey p)) - n)) (set_counter cc (C (skey p)) (cc (C (skey p)) - n)) (mt - n)). cbv zeta in IH.
    set (s := lsel r _ _ _) in *. destruct IH as [A [B [D [E [F G]]]]].
    unfold iadd; cbn [i_len i_count]. rewrite total_length_app, app_length, repeat_length.
    assert (RL : total_length (repeat (skey p, slen p) (N.to_nat n)) = n * slen p).
    { clear. rewrite <- (N2Nat.id n) at 2. generalize (N.to_nat n). induction n0 as [|m IH]; [cbn; lia|]. cbn [repeat total_length fold_right snd]. unfold total_length in IH. lia. }
    repeat split.
    + lia.
    + lia.
    + intros q Hq. rewrite occ_app, occ_repeat. cbn [fst]. destruct Hq as [<-|Hq].
      * rewrite Nat.eqb_refl. rewrite (occ_none (skey p) s); [unfold n; lia|]. intros l Hl. apply lsel_in in Hl. destruct Hl as [q [Q1 [Q2 _]]]. apply NI. rewrite <- Q2. apply in_map. exact Q1.
      * destruct (Nat.eqb_spec (skey p) (skey q)) as [Q|Q]; [exfalso; apply NI; rewrite Q; apply in_map; exact Hq|]. specialize (D q Hq). lia.
    + intros i. rewrite cnt_app, cnt_repeat. specialize (E i). unfold set_counter in E. unfold inT at 1. cbn [fst]. rewrite (Nat.eqb_sym (T (skey p)) i). destruct (Nat.eqb_spec i (T (skey p))) as [Q|Q]; [rewrite Q in *; unfold n in *; lia|lia].
    + intros i. rewrite cnt_app, cnt_repeat. specialize (F i). unfold set_counter in F. unfold inC at 1. cbn [fst]. rewrite (Nat.eqb_sym (C (skey p)) i). destruct (Nat.eqb_spec i (C (skey p))) as [Q|Q]; [rewrite Q in *; unfold n in *; lia|lia].
    + unfold n in *. lia.
Qed.
End Laminar.

(** the loop of the code is the greedy count, for any naming of the request bounds *)
Definition bba_avail (tsk : taskinfo) (r : rbound) : N := if Nat.eqb (ti_id (rb_task r)) (ti_id tsk) then 0 else get_max_num_requests r (ti_response tsk).
Definition bba_src (tsk : taskinfo) (p : nat * rbound) : nat * N * N := (fst p, bba_avail tsk (snd p), rb_len (snd p)).

Lemma set_same (f : nat -> N) k x : set_counter f k (f k) x = f x.
Proof. unfold set_counter. destruct (Nat.eqb_spec x k) as [->|E]; reflexivity. Qed.

Lemma lgreedy_ext T C src : forall tc cc tc' cc' mt, (forall x, tc x = tc' x) -> (forall x, cc x = cc' x) -> lgreedy T C src tc cc mt = lgreedy T C src tc' cc' mt.
Proof.
  induction src as [|p r IH]; intros tc cc tc' cc' mt H1 H2; [reflexivity|]. cbn [lgreedy]. rewrite H1, H2. f_equal. apply IH; intros x; unfold set_counter; destruct (Nat.eqb _ _); auto.
Qed.

Lemma lgreedy_zero T C src : forall tc cc, lgreedy T C src tc cc 0 = inter0.
Proof.
  induction src as [|p r IH]; intros tc cc; [reflexivity|]. cbn [lgreedy]. replace (N.min (savail p) (N.min (N.min (tc (T (skey p))) (cc (C (skey p)))) 0)) with 0 by lia. rewrite IH. reflexivity.
Qed.

Lemma bba_loop_greedy T C tsk kcont : (forall k r, In (k, r) kcont -> T k = ti_id (rb_task r) /\ C k = ti_cluster (rb_task r)) -> forall tc cc mt acc,
  bba_loop tsk (map snd kcont) tc cc mt acc = iadd acc (lgreedy T C (map (bba_src tsk) kcont) tc cc mt).
Proof.
  induction kcont as [|[k r] l IH]; intros HTC tc cc mt acc; [cbn; symmetry; apply iadd_0_r|].
  specialize (IH (fun k' r' H => HTC k' r' (or_intror H))). destruct (HTC k r (or_introl eq_refl)) as [ET EC].
  cbn [map snd bba_loop lgreedy]. change (skey (bba_src tsk (k, r))) with k. change (savail (bba_src tsk (k, r))) with (bba_avail tsk r). change (slen (bba_src tsk (k, r))) with (rb_len r). rewrite ET, EC.
  destruct (N.eqb_spec mt 0) as [->|M]; [| ].
  { replace (N.min (bba_avail tsk r) (N.min (N.min (tc (ti_id (rb_task r))) (cc (ti_cluster (rb_task r)))) 0)) with 0 by lia. rewrite lgreedy_zero. unfold iadd; cbn. destruct acc; cbn. f_equal; lia. }
  assert (Z : forall n, n = 0 -> iadd acc (iadd (Inter n (n * rb_len r)) (lgreedy T C (map (bba_src tsk) l) (set_counter tc (ti_id (rb_task r)) (tc (ti_id (rb_task r)) - n)) (set_counter cc (ti_cluster (rb_task r)) (cc (ti_cluster (rb_task r)) - n)) (mt - n))) =
    iadd acc (lgreedy T C (map (bba_src tsk) l) tc cc mt)).
  { intros n ->. rewrite !N.sub_0_r. rewrite (lgreedy_ext T C _ _ _ tc cc) by (intros x; apply set_same). unfold iadd; cbn [i_count i_len]. f_equal; lia. }
  unfold bba_avail. destruct (Nat.eqb (ti_id (rb_task r)) (ti_id tsk)); [rewrite IH; symmetry; apply Z; lia|].
  destruct (N.eqb_spec (tc (ti_id (rb_task r))) 0) as [E1|E1]; [rewrite IH; symmetry; apply Z; lia|].
  destruct (N.eqb_spec (cc (ti_cluster (rb_task r))) 0) as [E2|E2]; [rewrite IH; symmetry; apply Z; lia|].
  rewrite IH. unfold iadd; cbn [i_count i_len]. f_equal; lia.
Qed.

(** keys of tasks *)
Lemma bba_task_safe C tsk cont remote local per_task mt sel : NoDup (map tkey cont) -> sorted_by_length cont ->
  (forall r, In r cont -> C (tkey r) = ti_cluster (rb_task r)) ->
  (forall k l, In (k, l) sel -> exists r, In r cont /\ tkey r = k /\ k <> ti_id tsk /\ l <= rb_len r) ->
  (forall r, In r cont -> occurrences (tkey r) sel <= get_max_num_requests r (ti_response tsk)) ->
  (forall k, occurrences k sel <= per_task) ->
  (forall c, cnt (fun p => Nat.eqb (C (fst p)) c) sel <= if Nat.eqb c (ti_cluster tsk) then local else remote) -> N.of_nat (length sel) <= mt ->
  total_length sel <= i_len (bound_blocking_all tsk cont remote local per_task mt).
Proof.
  intros ND SO HC S1 S2 S3 S4 S5. unfold bound_blocking_all.
  assert (E : map snd (map (fun r => (tkey r, r)) cont) = cont) by (rewrite map_map; cbn; apply map_id).
  rewrite <- E at 1. rewrite (bba_loop_greedy (fun k => k) C tsk).
  2:{ intros k r H. apply in_map_iff in H. destruct H as [x [H1 H2]]. injection H1 as <- <-. split; [reflexivity|apply HC; exact H2]. }
  rewrite iadd_0_l. rewrite map_map. cbn [fst snd]. apply lgreedy_safe.
  - rewrite map_map. exact ND.
  - clear - SO. unfold decreasing. induction SO as [|r l H IH F]; cbn [map]; constructor; [exact IH|]. rewrite Forall_forall in *. intros x Hx. apply in_map_iff in Hx. destruct Hx as [y [<- Hy]]. apply (F y Hy).
  - intros p q _ _ H. rewrite H. reflexivity.
  - intros k l H. destruct (S1 k l H) as [r [A [B [D F]]]]. exists (bba_src tsk (tkey r, r)). split; [apply in_map_iff; exists r; auto|]. split; [exact B|exact F].
  - intros p Hp. apply in_map_iff in Hp. destruct Hp as [r [<- Hr]]. unfold bba_src, skey, savail, bba_avail; cbn [fst snd].
    destruct (Nat.eqb_spec (ti_id (rb_task r)) (ti_id tsk)) as [Q|Q]; [|apply S2; exact Hr].
    rewrite (occ_none (tkey r) sel); [lia|]. intros l Hl. destruct (S1 _ _ Hl) as [_ [_ [_ [X _]]]]. apply X. exact Q.
  - intros i. apply S3.
  - intros c. unfold set_counter. etransitivity; [apply (S4 c)|]. reflexivity.
  - exact S5.
Qed.

(** keys of positions *)
Lemma combine_seq_in {A} (l : list A) : forall s k r, In (k, r) (combine (seq s (length l)) l) <-> exists j, k = (s + j)%nat /\ nth_error l j = Some r.
Proof.
  induction l as [|a l IH]; intros s k r; cbn [length seq combine].
  - split; [intros []|]. intros [[|j] [_ H]]; discriminate.
  - split.
    + intros [H|H]; [injection H as <- <-; exists 0%nat; split; [lia|reflexivity]|]. apply IH in H. destruct H as [j [-> H]]. exists (S j). split; [lia|exact H].
    + intros [[|j] [-> H]]; [left; injection H as ->; f_equal; lia|]. right. apply IH. exists j. split; [lia|exact H].
Qed.

Lemma combine_fst {A B} (a : list A) : forall b : list B, length a = length b -> map fst (combine a b) = a.
Proof. induction a as [|x a IH]; intros [|y b] H; try discriminate; [reflexivity|]. cbn. f_equal. apply IH. injection H. auto. Qed.
Lemma combine_snd {A B} (a : list A) : forall b : list B, length a = length b -> map snd (combine a b) = b.
Proof. induction a as [|x a IH]; intros [|y b] H; try discriminate; [reflexivity|]. cbn. f_equal. apply IH. injection H. auto. Qed.

Section Exact.
Variables (tsk : taskinfo) (cont : list rbound) (remote local per_task mt : N).
Hypothesis Hper : forall r, In r cont -> 0 < ti_period (rb_task r).
Hypothesis Hsort : sorted_by_length cont.
Hypothesis Hclu : forall r r', In r cont -> In r' cont -> ti_id (rb_task r) = ti_id (rb_task r') -> ti_cluster (rb_task r) = ti_cluster (rb_task r').

Let Tk (k : nat) : nat := match nth_error cont k with Some r => ti_id (rb_task r) | None => 0%nat end.
Let Ck (k : nat) : nat := match nth_error cont k with Some r => ti_cluster (rb_task r) | None => 0%nat end.
Let kc := combine (seq 0 (length cont)) cont.

Let kc_in k r : In (k, r) kc <-> nth_error cont k = Some r.
Proof. unfold kc. rewrite combine_seq_in. split; [intros [j [-> H]]; exact H|intros H; exists k; auto]. Qed.

Let eq : bound_blocking_all tsk cont remote local per_task mt =
  lgreedy Tk Ck (map (bba_src tsk) kc) (fun _ => per_task) (set_counter (fun _ => remote) (ti_cluster tsk) local) mt.
Proof.
  unfold bound_blocking_all. assert (E : map snd kc = cont) by (apply combine_snd, seq_length). rewrite <- E at 1. rewrite (bba_loop_greedy Tk Ck tsk).
  - apply iadd_0_l.
  - intros k r H. apply kc_in in H. unfold Tk, Ck. rewrite H. auto.
Qed.

Let nd : NoDup (map skey (map (bba_src tsk) kc)).
Proof. rewrite map_map. replace (map _ kc) with (map fst kc) by (apply map_ext; intros [k r]; reflexivity). unfold kc. rewrite combine_fst by apply seq_length. apply seq_NoDup. Qed.

Let dec : decreasing (map (bba_src tsk) kc).
Proof.
  unfold decreasing. assert (G : forall l ks, StronglySorted (fun a b => rb_len b <= rb_len a) l -> StronglySorted (fun a b => slen b <= slen a) (map (bba_src tsk) (combine ks l))).
  { induction l as [|r l IH]; intros [|k ks] H; cbn [combine map]; try constructor.
    - inversion H as [|x y H1 H2]; subst. apply IH. exact H1.
    - inversion H as [|x y H1 H2]; subst. rewrite Forall_forall in *. intros x Hx. apply in_map_iff in Hx. destruct Hx as [[k' r'] [<- Hx]]. apply in_combine_r in Hx. apply (H2 r' Hx). }
  apply G. exact Hsort.
Qed.

Lemma in_T sel i : (forall k l, In (k, l) sel -> exists r, nth_error cont k = Some r) -> cnt (inT Tk i) sel = N.of_nat (length (filter (from_task cont i) sel)).
Proof. intros H. unfold cnt. do 2 f_equal. apply filter_ext_in. intros [k l] Hk. unfold inT, from_task, Tk. cbn [fst]. destruct (H k l Hk) as [r ->]. reflexivity. Qed.
Lemma in_C sel i : (forall k l, In (k, l) sel -> exists r, nth_error cont k = Some r) -> cnt (inC Ck i) sel = N.of_nat (length (filter (from_cluster cont i) sel)).
Proof. intros H. unfold cnt. do 2 f_equal. apply filter_ext_in. intros [k l] Hk. unfold inC, from_cluster, Ck. cbn [fst]. destruct (H k l Hk) as [r ->]. reflexivity. Qed.

Lemma bba_safe sel : limited_selection cont (ti_id tsk) (ti_response tsk) per_task (fun c => if Nat.eqb c (ti_cluster tsk) then local else remote) mt sel ->
  total_length sel <= i_len (bound_blocking_all tsk cont remote local per_task mt) /\ N.of_nat (length sel) <= i_count (bound_blocking_all tsk cont remote local per_task mt).
Proof.
  intros [S1 S2 S3 S4 S5]. rewrite eq.
  assert (SR : forall k l, In (k, l) sel -> exists r, nth_error cont k = Some r) by (intros k l H; destruct (S1 k l H) as [r [A _]]; exists r; exact A).
  apply lgreedy_safe.
  - exact nd.
  - exact dec.
  - intros p q Hp Hq. apply in_map_iff in Hp, Hq. destruct Hp as [[k r] [<- Hp]], Hq as [[k' r'] [<- Hq]]. apply kc_in in Hp, Hq. unfold bba_src, skey, Tk, Ck; cbn [fst snd]. rewrite Hp, Hq.
    apply Hclu; eapply nth_error_In; eassumption.
  - intros k l H. destruct (S1 k l H) as [r [A [B D]]]. exists (bba_src tsk (k, r)). split; [apply in_map, kc_in, A|]. split; [reflexivity|exact D].
  - intros p Hp. apply in_map_iff in Hp. destruct Hp as [[k r] [<- Hp]]. apply kc_in in Hp. unfold bba_src, skey, savail, bba_avail; cbn [fst snd].
    destruct (Nat.eqb_spec (ti_id (rb_task r)) (ti_id tsk)) as [Q|Q].
    + rewrite (occ_none k sel); [lia|]. intros l Hl. destruct (S1 _ _ Hl) as [r' [A [B _]]]. rewrite Hp in A. injection A as <-. contradiction.
    + apply fits_iff; [apply Hper; eapply nth_error_In; exact Hp|]. apply S2. exact Hp.
  - intros i. rewrite (in_T sel i SR). apply S3.
  - intros c. rewrite (in_C sel c SR). unfold set_counter. apply S4.
  - exact S5.
Qed.

Lemma bba_tight : exists sel, limited_selection cont (ti_id tsk) (ti_response tsk) per_task (fun c => if Nat.eqb c (ti_cluster tsk) then local else remote) mt sel /\
  total_length sel = i_len (bound_blocking_all tsk cont remote local per_task mt) /\ N.of_nat (length sel) = i_count (bound_blocking_all tsk cont remote local per_task mt).
Proof.
  rewrite eq. set (src := map (bba_src tsk) kc). set (cc := set_counter (fun _ => remote) (ti_cluster tsk) local).
  exists (lsel Tk Ck src (fun _ => per_task) cc mt). destruct (lsel_spec Tk Ck src nd (fun _ => per_task) cc mt) as [A [B [D [E [F G]]]]]. split; [|split; assumption].
  assert (SI : forall k l, In (k, l) (lsel Tk Ck src (fun _ => per_task) cc mt) -> exists r, nth_error cont k = Some r /\ ti_id (rb_task r) <> ti_id tsk /\ l = rb_len r).
  { intros k l H. apply lsel_in in H. destruct H as [p [P1 [P2 [P3 P4]]]]. apply in_map_iff in P1. destruct P1 as [[k' r] [<- P1]]. apply kc_in in P1.
    unfold bba_src, skey, slen, savail in P2, P3, P4. cbn [fst snd] in *. subst k'. exists r. split; [exact P1|]. split; [|congruence]. unfold bba_avail in P4. destruct (Nat.eqb_spec (ti_id (rb_task r)) (ti_id tsk)); [lia|assumption]. }
  assert (SR : forall k l, In (k, l) (lsel Tk Ck src (fun _ => per_task) cc mt) -> exists r, nth_error cont k = Some r) by (intros k l H; destruct (SI k l H) as [r [X _]]; exists r; exact X).
  constructor.
  - intros k l H. destruct (SI k l H) as [r [X [Y ->]]]. exists r. split; [exact X|]. split; [exact Y|apply N.le_refl].
  - intros k r H. apply fits_iff; [apply Hper; eapply nth_error_In; exact H|].
    specialize (D (bba_src tsk (k, r)) (in_map _ _ _ (proj2 (kc_in k r) H))). unfold bba_src, skey, savail, bba_avail in D; cbn [fst snd] in D. destruct (Nat.eqb _ _); lia.
  - intros i. rewrite <- (in_T _ i SR). apply E.
  - intros c. rewrite <- (in_C _ c SR). apply (F c).
  - exact G.
Qed.
End Exact.
