(** Proofs about bound_blocking: it is the maximum over all selections. *)
From Coq Require Import NArith ZArith List Bool Sorted Permutation Lia Arith.
From Verif Require Import ModelLocking SpecLocking.
Import ListNotations.
Open Scope N_scope.

(** * Greedy maximization over keyed sources (key, available, length) *)
Definition skey (p : nat * N * N) : nat := fst (fst p).
Definition savail (p : nat * N * N) : N := snd (fst p).
Definition slen (p : nat * N * N) : N := snd p.

Fixpoint greedy (src : list (nat * N * N)) (cap : N) : interf :=
  match src with
  | [] => inter0
  | p :: r => let n := N.min (savail p) cap in
              iadd (Inter n (n * slen p)) (greedy r (cap - n))
  end.

Definition decreasing (src : list (nat * N * N)) : Prop := StronglySorted (fun p q => slen q <= slen p) src.

Lemma greedy_more src : forall k d l, Forall (fun p => slen p <= l) src ->
  i_len (greedy src (k + d)) <= i_len (greedy src k) + d * l /\ i_count (greedy src k) <= i_count (greedy src (k + d)).
Proof.
  induction src as [|p r IH]; intros k d l H; cbn [greedy].
  - split; cbn; [apply N.le_0_l|reflexivity].
  - inversion H as [|x y H1 H2]; subst.
    set (n := N.min (savail p) (k + d)). set (n' := N.min (savail p) k).
    assert (E : k + d - n = (k - n') + (d - (n - n'))) by (subst n n'; lia).
    rewrite E. destruct (IH (k - n') (d - (n - n')) l H2) as [A B].
    unfold iadd; cbn [i_len i_count].
    assert (n' <= n) by (subst n n'; lia). assert (n - n' <= d) by (subst n n'; lia).
    split; [|lia].
    assert (n * slen p <= n' * slen p + (n - n') * l) by nia.
    nia.
Qed.

Lemma greedy_mono src k k' : k <= k' -> i_len (greedy src k) <= i_len (greedy src k') /\ i_count (greedy src k) <= i_count (greedy src k').
Proof.
  revert k k'; induction src as [|p r IH]; intros k k' H; cbn [greedy]; [split; reflexivity|].
  set (n := N.min (savail p) k). set (n' := N.min (savail p) k').
  assert (k - n <= k' - n') by (subst n n'; lia).
  destruct (IH _ _ H0) as [A B]. unfold iadd; cbn [i_len i_count]. assert (n <= n') by (subst n n'; lia). split; nia.
Qed.

Definition with_key (k : nat) (sel : list (nat * N)) : list (nat * N) := filter (fun p => Nat.eqb (fst p) k) sel.
Definition without_key (k : nat) (sel : list (nat * N)) : list (nat * N) := filter (fun p => negb (Nat.eqb (fst p) k)) sel.

Lemma occurrences_with k sel : occurrences k sel = N.of_nat (length (with_key k sel)).
Proof. reflexivity. Qed.

Lemma key_split k sel : total_length sel = total_length (with_key k sel) + total_length (without_key k sel) /\
  length sel = (length (with_key k sel) + length (without_key k sel))%nat.
Proof.
  induction sel as [|[j l] r [A B]]; [split; reflexivity|].
  unfold with_key, without_key in *; cbn [filter fst]. destruct (Nat.eqb j k); cbn [negb length total_length fold_right snd]; fold (total_length r);
  split; try lia; unfold total_length in *; cbn [fold_right snd]; lia.
Qed.

Lemma total_length_bound sel l : (forall p, In p sel -> snd p <= l) -> total_length sel <= N.of_nat (length sel) * l.
Proof.
  induction sel as [|p r IH]; intros H; [cbn; lia|].
  specialize (IH (fun q Hq => H q (or_intror Hq))). specialize (H p (or_introl eq_refl)).
  unfold total_length in *; cbn [fold_right length]. rewrite Nat2N.inj_succ. lia.
Qed.

Lemma occ_without k j sel : j <> k -> occurrences j (without_key k sel) = occurrences j sel.
Proof.
  intros H. unfold occurrences, without_key. f_equal. induction sel as [|[i l] r IH]; [reflexivity|].
  cbn [filter fst]. destruct (Nat.eqb_spec i k) as [->|N]; cbn [negb filter fst].
  - destruct (Nat.eqb_spec k j); [lia|exact IH].
  - destruct (Nat.eqb i j); cbn [length]; lia.
Qed.

Theorem greedy_safe src : NoDup (map skey src) -> decreasing src -> forall cap sel,
  (forall k l, In (k, l) sel -> exists p, In p src /\ skey p = k /\ l <= slen p) ->
  (forall p, In p src -> occurrences (skey p) sel <= savail p) ->
  N.of_nat (length sel) <= cap ->
  total_length sel <= i_len (greedy src cap) /\ N.of_nat (length sel) <= i_count (greedy src cap).
Proof.
  induction src as [|p r IH]; intros ND SD cap sel H1 H2 H3.
  - destruct sel as [|[k l] s]; [split; reflexivity|]. destruct (H1 k l (or_introl eq_refl)) as [q [[] _]].
  - inversion ND as [|x y NI ND']; subst. inversion SD as [|x y SD' FA]; subst.
    destruct (key_split (skey p) sel) as [T L].
    set (c := length (with_key (skey p) sel)) in *.
    assert (Hc : N.of_nat c <= savail p) by (specialize (H2 p (or_introl eq_refl)); rewrite occurrences_with in H2; exact H2).
    assert (Hcap : N.of_nat c <= cap) by lia.
    destruct (IH ND' SD' (cap - N.of_nat c) (without_key (skey p) sel)) as [A B].
    + intros k l Hin. apply filter_In in Hin. destruct Hin as [Hin Hk]. cbn [fst] in Hk.
      destruct (H1 k l Hin) as [q [Hq [E Hl]]]. destruct Hq as [<-|Hq]; [rewrite <- E, Nat.eqb_refl in Hk; discriminate|].
      exists q. auto.
    + intros q Hq. rewrite occ_without; [apply H2; right; exact Hq|]. intros E. apply NI. rewrite <- E. apply in_map. exact Hq.
    + lia.
    + assert (W : total_length (with_key (skey p) sel) <= N.of_nat c * slen p).
      { apply total_length_bound. intros [k l] Hin. apply filter_In in Hin. destruct Hin as [Hin Hk]. cbn [fst] in Hk. apply Nat.eqb_eq in Hk.
        destruct (H1 k l Hin) as [q [Hq [E Hl]]]. cbn [snd]. destruct Hq as [<-|Hq]; [exact Hl|].
        rewrite Forall_forall in FA. specialize (FA q Hq). lia. }
      cbn [greedy]. set (g := N.min (savail p) cap).
      assert (Hg : N.of_nat c <= g) by (subst g; lia).
      assert (E : cap - N.of_nat c = (cap - g) + (g - N.of_nat c)) by (subst g; lia).
      rewrite E in A, B. destruct (greedy_more r (cap - g) (g - N.of_nat c) (slen p) FA) as [C D].
      unfold iadd; cbn [i_len i_count]. rewrite T. split; [nia|].
      (* counts: min of capacity and supply *)
      assert (M : forall s k d, i_count (greedy s (k + d)) <= i_count (greedy s k) + d).
      { clear. induction s as [|p s IH]; intros k d; cbn [greedy]; [cbn; lia|].
        set (n := N.min (savail p) (k + d)). set (n' := N.min (savail p) k).
        assert (E : k + d - n = (k - n') + (d - (n - n'))) by (subst n n'; lia). rewrite E.
        specialize (IH (k - n') (d - (n - n'))). unfold iadd; cbn [i_count]. assert (n - n' <= d) by (subst n n'; lia). assert (n' <= n) by (subst n n'; lia). lia. }
      specialize (M r (cap - g) (g - N.of_nat c)). lia.
Qed.

(** a selection that attains the greedy value *)
Fixpoint greedy_sel (src : list (nat * N * N)) (cap : N) : list (nat * N) :=
  match src with
  | [] => []
  | p :: r => let n := N.min (savail p) cap in
              repeat (skey p, slen p) (N.to_nat n) ++ greedy_sel r (cap - n)
  end.

Lemma total_length_app a b : total_length (a ++ b) = total_length a + total_length b.
Proof. induction a as [|p r IH]; [reflexivity|]. unfold total_length in *; cbn [app fold_right]. lia. Qed.
Lemma total_length_repeat p n : total_length (repeat p n) = N.of_nat n * snd p.
Proof. induction n as [|n IH]; [reflexivity|]. unfold total_length in *; cbn [repeat fold_right]. rewrite IH. lia. Qed.

Lemma occ_app k a b : occurrences k (a ++ b) = occurrences k a + occurrences k b.
Proof. unfold occurrences. rewrite filter_app, app_length. lia. Qed.
Lemma occ_repeat k p n : occurrences k (repeat p n) = if Nat.eqb (fst p) k then N.of_nat n else 0.
Proof.
  unfold occurrences. induction n as [|n IH]; cbn [repeat filter]; [destruct (Nat.eqb _ _); reflexivity|].
  destruct (Nat.eqb (fst p) k); cbn [length]; lia.
Qed.

Lemma greedy_sel_keys src : forall cap k l, In (k, l) (greedy_sel src cap) -> exists p, In p src /\ skey p = k /\ slen p = l /\ 0 < savail p.
Proof.
  induction src as [|p r IH]; intros cap k l H; cbn [greedy_sel] in H; [destruct H|].
  apply in_app_iff in H. destruct H as [H|H].
  - destruct (N.min (savail p) cap) eqn:E; [destruct H|]. apply repeat_spec in H. injection H as -> ->. exists p. split; [left; reflexivity|]. repeat split; lia.
  - destruct (IH _ _ _ H) as [q [A B]]. exists q. split; [right; exact A|exact B].
Qed.

Lemma occ_none k sel : (forall l, ~ In (k, l) sel) -> occurrences k sel = 0.
Proof.
  intros H. unfold occurrences. replace (filter _ sel) with (@nil (nat * N)); [reflexivity|].
  induction sel as [|[j l] r IH]; [reflexivity|]. cbn [filter fst]. destruct (Nat.eqb_spec j k) as [->|N].
  - exfalso. apply (H l). left; reflexivity.
  - apply IH. intros l' Hl. apply (H l'). right; exact Hl.
Qed.

Lemma greedy_sel_occ src : NoDup (map skey src) -> forall cap p, In p src -> occurrences (skey p) (greedy_sel src cap) <= savail p.
Proof.
  induction src as [|p r IH]; intros ND cap q H; [destruct H|]. inversion ND as [|x y NI ND']; subst.
  cbn [greedy_sel]. rewrite occ_app, occ_repeat. cbn [fst]. destruct H as [<-|H].
  - rewrite Nat.eqb_refl, N2Nat.id. rewrite (occ_none (skey p)); [lia|].
    intros l Hl. apply greedy_sel_keys in Hl. destruct Hl as [q [A [B _]]]. apply NI. rewrite <- B. apply in_map; exact A.
  - destruct (Nat.eqb_spec (skey p) (skey q)) as [E|N]; [exfalso; apply NI; rewrite E; apply in_map; exact H|].
    cbn. apply IH; auto.
Qed.

Lemma greedy_sel_value src : forall cap, total_length (greedy_sel src cap) = i_len (greedy src cap) /\ N.of_nat (length (greedy_sel src cap)) = i_count (greedy src cap) /\
  i_count (greedy src cap) <= cap.
Proof.
  induction src as [|p r IH]; intros cap; cbn [greedy_sel greedy]; [repeat split; cbn; lia|].
  destruct (IH (cap - N.min (savail p) cap)) as [A [B C]].
  rewrite total_length_app, total_length_repeat, app_length, repeat_length. unfold iadd; cbn [i_len i_count snd].
  rewrite N2Nat.id. repeat split; lia.
Qed.

(** * bound_blocking as a greedy maximization *)
Definition avail (excluded : taskinfo -> bool) (interval per_source : N) (r : rbound) : N :=
  if excluded (rb_task r) then 0 else N.min (get_max_num_requests r interval) per_source.

Definition sources (key : rbound -> nat) (excluded : taskinfo -> bool) (interval per_source : N) (cont : list rbound) : list (nat * N * N) :=
  map (fun r => (key r, avail excluded interval per_source r, rb_len r)) cont.

Lemma greedy_zero src : greedy src 0 = inter0.
Proof. induction src as [|p r IH]; [reflexivity|]. cbn [greedy]. rewrite N.min_0_r. cbn [N.sub]. rewrite IH. reflexivity. Qed.

Lemma iadd_0_r a : iadd a inter0 = a.
Proof. destruct a; unfold iadd; cbn. rewrite !N.add_0_r. reflexivity. Qed.
Lemma iadd_0_l a : iadd inter0 a = a.
Proof. destruct a; reflexivity. Qed.
Lemma iadd_assoc a b c : iadd a (iadd b c) = iadd (iadd a b) c.
Proof. unfold iadd; cbn. f_equal; lia. Qed.

Lemma bb_loop_greedy key excluded interval per_source cont : forall remaining inter,
  bb_loop excluded interval per_source cont remaining inter = iadd inter (greedy (sources key excluded interval per_source cont) remaining).
Proof.
  induction cont as [|r rest IH]; intros remaining inter; cbn [bb_loop sources map greedy]; [symmetry; apply iadd_0_r|].
  destruct (N.eqb_spec remaining 0) as [->|NZ].
  - rewrite N.min_0_r. cbn [N.sub]. rewrite greedy_zero. unfold iadd; cbn. destruct inter; cbn. f_equal; lia.
  - unfold savail, slen; cbn [fst snd]. fold (sources key excluded interval per_source rest). unfold avail.
    destruct (excluded (rb_task r)); cbn [negb].
    + rewrite IH, N.min_0_l, N.sub_0_r. unfold iadd; cbn. f_equal; lia.
    + rewrite IH, iadd_assoc. reflexivity.
Qed.

Definition sorted_by_length (cont : list rbound) : Prop := StronglySorted (fun a b => rb_len b <= rb_len a) cont.

Lemma sources_decreasing key excluded interval per_source cont : sorted_by_length cont -> decreasing (sources key excluded interval per_source cont).
Proof.
  unfold sorted_by_length, decreasing. induction 1 as [|a l H IH FA]; cbn; constructor; [exact IH|].
  unfold sources. rewrite Forall_map. exact FA.
Qed.

(** ceilings *)
Lemma divide_with_ceil_spec a b : 0 < b -> (divide_with_ceil a b = 0 \/ (divide_with_ceil a b - 1) * b < a) /\ a <= divide_with_ceil a b * b.
Proof.
  intros H. unfold divide_with_ceil. pose proof (N.div_mod a b ltac:(lia)) as E. pose proof (N.mod_lt a b ltac:(lia)) as L.
  destruct (N.eqb_spec (a mod b) 0) as [Z|Z].
  - split; [|lia]. destruct (N.eq_dec (a / b) 0) as [Q|Q]; [left; exact Q|right]. rewrite N.mul_sub_distr_r. nia.
  - split; [|nia]. right. rewrite N.add_sub. generalize dependent (a / b). generalize dependent (a mod b). clear. intros r L Z q E. rewrite (N.mul_comm q b). lia.
Qed.

Lemma fits_iff r interval n : 0 < ti_period (rb_task r) -> (fits r interval n <-> n <= get_max_num_requests r interval).
Proof.
  intros Hp. unfold fits, get_max_num_requests, get_max_num_jobs.
  destruct (divide_with_ceil_spec (interval + ti_response (rb_task r)) (ti_period (rb_task r)) Hp) as [A B].
  set (c := divide_with_ceil _ _) in *. split.
  - intros [j [H1 H2]]. assert (j <= c); [|nia].
    destruct H2 as [->|H2]; [lia|]. nia.
  - intros H. exists c. split; [exact H|exact A].
Qed.

(** sorting *)
Lemma insert_len_perm {A} (len : A -> N) x l : Permutation (x :: l) (insert_len len x l).
Proof.
  induction l as [|y r IH]; cbn; [reflexivity|]. destruct (len y <=? len x); [reflexivity|].
  rewrite perm_swap. constructor. exact IH.
Qed.
Lemma sort_len_perm {A} (len : A -> N) l : Permutation l (sort_len len l).
Proof. induction l as [|x r IH]; cbn; [constructor|]. rewrite <- insert_len_perm. constructor. exact IH. Qed.
Lemma insert_len_sorted {A} (len : A -> N) x l : StronglySorted (fun a b => len b <= len a) l -> StronglySorted (fun a b => len b <= len a) (insert_len len x l).
Proof.
  induction 1 as [|y r S IH FA]; cbn; [repeat constructor|].
  destruct (N.leb_spec (len y) (len x)).
  - constructor; [constructor; assumption|]. constructor; [assumption|]. eapply Forall_impl; [|exact FA]. cbn; intros; lia.
  - constructor; [exact IH|]. apply (Permutation_Forall (insert_len_perm len x r)). constructor; [lia|exact FA].
Qed.
Lemma sort_len_sorted {A} (len : A -> N) l : StronglySorted (fun a b => len b <= len a) (sort_len len l).
Proof. induction l as [|x r IH]; cbn; [constructor|apply insert_len_sorted; exact IH]. Qed.

(** keyed sources with indices *)
Definition index_sources (excluded : taskinfo -> bool) (interval per_source : N) (start : nat) (cont : list rbound) : list (nat * N * N) :=
  map (fun p => (fst p, avail excluded interval per_source (snd p), rb_len (snd p))) (combine (seq start (length cont)) cont).

Lemma index_sources_spec excluded interval per_source cont : forall start p,
  In p (index_sources excluded interval per_source start cont) <->
  exists k r, nth_error cont k = Some r /\ p = ((start + k)%nat, avail excluded interval per_source r, rb_len r).
Proof.
  induction cont as [|r rest IH]; intros start p; cbn.
  - split; [intros []|intros [k [r [H _]]]; destruct k; discriminate].
  - split.
    + intros [<-|H].
      * exists 0%nat, r. split; [reflexivity|]. rewrite Nat.add_0_r. reflexivity.
      * apply IH in H. destruct H as [k [x [H ->]]]. exists (S k), x. split; [exact H|]. f_equal. f_equal. lia.
    + intros [[|k] [x [H ->]]]; cbn in H.
      * injection H as ->. left. rewrite Nat.add_0_r. reflexivity.
      * right. apply IH. exists k, x. split; [exact H|]. f_equal. f_equal. lia.
Qed.

Lemma index_sources_keys excluded interval per_source cont start : map skey (index_sources excluded interval per_source start cont) = seq start (length cont).
Proof.
  revert start; induction cont as [|r rest IH]; intros start; cbn; [reflexivity|]. f_equal. apply IH.
Qed.

Lemma index_sources_decreasing excluded interval per_source cont start : sorted_by_length cont -> decreasing (index_sources excluded interval per_source start cont).
Proof.
  intros H. revert start. induction H as [|a l H IH FA]; intros start; cbn; constructor; [apply IH|].
  rewrite Forall_forall in *. intros p Hp. apply index_sources_spec in Hp. destruct Hp as [k [r [Hk ->]]]. apply FA. eapply nth_error_In; exact Hk.
Qed.

Lemma greedy_keys src src' cap : map (fun p => (savail p, slen p)) src = map (fun p => (savail p, slen p)) src' -> greedy src cap = greedy src' cap.
Proof.
  revert src' cap; induction src as [|p r IH]; intros [|q r'] cap H; cbn in H; try discriminate; [reflexivity|].
  injection H as H1 H2 H3. cbn [greedy]. rewrite H1, H2, (IH r' _ H3). reflexivity.
Qed.

Lemma index_sources_greedy key excluded interval per_source cont start cap :
  greedy (index_sources excluded interval per_source start cont) cap = greedy (sources key excluded interval per_source cont) cap.
Proof.
  apply greedy_keys. revert start. induction cont as [|r rest IH]; intros start; cbn; [reflexivity|]. f_equal. apply IH.
Qed.

Lemma avail_fits excluded interval per_source r n : 0 < ti_period (rb_task r) -> n <= per_source -> fits r interval n -> excluded (rb_task r) = false -> n <= avail excluded interval per_source r.
Proof. intros Hp H1 H2 H3. apply fits_iff in H2; [|exact Hp]. unfold avail. rewrite H3. lia. Qed.

Lemma bb_loop_safe excluded interval per_source cont max_total sel :
  (forall r, In r cont -> 0 < ti_period (rb_task r)) -> sorted_by_length cont ->
  selection cont excluded interval max_total per_source sel ->
  total_length sel <= i_len (bb_loop excluded interval per_source cont max_total inter0) /\
  N.of_nat (length sel) <= i_count (bb_loop excluded interval per_source cont max_total inter0).
Proof.
  intros Hp Hs [S1 S2 S3 S4]. rewrite (bb_loop_greedy (fun _ => 0%nat)), iadd_0_l, <- (index_sources_greedy _ _ _ _ _ 0%nat).
  apply greedy_safe.
  - rewrite index_sources_keys. apply seq_NoDup.
  - apply index_sources_decreasing. exact Hs.
  - intros k l H. destruct (S1 k l H) as [r [A [B C]]]. exists (k, avail excluded interval per_source r, rb_len r).
    split; [|split; [reflexivity|exact C]]. apply index_sources_spec. exists k, r. auto.
  - intros p H. apply index_sources_spec in H. destruct H as [k [r [A ->]]]. cbn [plus]. unfold skey, savail; cbn [fst snd].
    destruct (excluded (rb_task r)) eqn:E.
    + rewrite (occ_none k); [apply N.le_0_l|]. intros l Hl. destruct (S1 k l Hl) as [r' [A' [B' _]]]. rewrite A in A'. injection A' as <-. congruence.
    + apply avail_fits; auto. apply Hp. eapply nth_error_In; exact A.
  - exact S4.
Qed.

Lemma bb_loop_tight excluded interval per_source cont max_total :
  (forall r, In r cont -> 0 < ti_period (rb_task r)) ->
  exists sel, selection cont excluded interval max_total per_source sel /\
  total_length sel = i_len (bb_loop excluded interval per_source cont max_total inter0) /\
  N.of_nat (length sel) = i_count (bb_loop excluded interval per_source cont max_total inter0).
Proof.
  intros Hp. set (src := index_sources excluded interval per_source 0%nat cont).
  exists (greedy_sel src max_total). rewrite (bb_loop_greedy (fun _ => 0%nat)), iadd_0_l, <- (index_sources_greedy _ _ _ _ _ 0%nat). fold src.
  destruct (greedy_sel_value src max_total) as [A [B C]]. split; [|split; assumption].
  assert (ND : NoDup (map skey src)) by (unfold src; rewrite index_sources_keys; apply seq_NoDup).
  assert (OC : forall k r, nth_error cont k = Some r -> occurrences k (greedy_sel src max_total) <= avail excluded interval per_source r).
  { intros k r H. apply (greedy_sel_occ src ND max_total (k, avail excluded interval per_source r, rb_len r)).
    apply index_sources_spec. exists k, r. auto. }
  constructor.
  - intros k l H. apply greedy_sel_keys in H. destruct H as [p [H1 [H2 [H3 H4]]]]. apply index_sources_spec in H1. destruct H1 as [j [r [H1 ->]]].
    unfold skey, slen, savail in *; cbn [fst snd plus] in *. subst. exists r. split; [exact H1|]. unfold avail in H4.
    destruct (excluded (rb_task r)); [lia|]. split; [reflexivity|apply N.le_refl].
  - intros k r H. apply fits_iff; [apply Hp; eapply nth_error_In; exact H|]. specialize (OC k r H). unfold avail in OC. destruct (excluded (rb_task r)); lia.
  - intros k. destruct (nth_error cont k) as [r|] eqn:E.
    + specialize (OC k r E). unfold avail in OC. destruct (excluded (rb_task r)); lia.
    + rewrite occ_none; [apply N.le_0_l|]. intros l Hl. apply greedy_sel_keys in Hl. destruct Hl as [p [H1 [H2 _]]].
      apply index_sources_spec in H1. destruct H1 as [j [r [H1 ->]]]. unfold skey in H2; cbn in H2. subst. congruence.
  - rewrite B. exact C.
Qed.

(** limited contention sets (used by the k-exclusion protocol) *)
Lemma bb_limited_greedy lcs : forall remaining inter,
  bb_limited lcs remaining inter = iadd inter (greedy (map (fun p => (0%nat, snd p, rb_len (fst p))) lcs) remaining).
Proof.
  induction lcs as [|[r a] rest IH]; intros remaining inter; cbn [bb_limited map greedy]; [symmetry; apply iadd_0_r|].
  destruct (N.eqb_spec remaining 0) as [->|NZ].
  - rewrite N.min_0_r. cbn [N.sub]. rewrite greedy_zero. unfold iadd; cbn. destruct inter; cbn. f_equal; lia.
  - rewrite IH, iadd_assoc. reflexivity.
Qed.

(** * Jobs pending in an interval *)
Lemma sporadic_spacing period rel n k : (forall k, rel k + Z.of_N period <= rel (S k))%Z -> (rel k + Z.of_nat n * Z.of_N period <= rel (n + k)%nat)%Z.
Proof.
  intros H. induction n as [|n IH]; [cbn; lia|]. specialize (H (n + k)%nat). cbn [plus]. rewrite Nat2Z.inj_succ. lia.
Qed.

Lemma nodup_spread (l : list nat) : NoDup l -> l <> [] -> exists a b, In a l /\ In b l /\ (a <= b)%nat /\ (length l <= S (b - a))%nat.
Proof.
  intros ND NE.
  assert (M : forall l : list nat, l <> [] -> exists a b, In a l /\ In b l /\ forall x, In x l -> (a <= x <= b)%nat).
  { clear. induction l as [|x [|y r] IH]; intros H; [congruence| |].
    - exists x, x. cbn. repeat split; auto; destruct H0 as [<-|[]]; lia.
    - destruct IH as [a [b [Ha [Hb HM]]]]; [discriminate|].
      exists (Nat.min a x), (Nat.max b x). split; [|split].
      + destruct (Nat.min_spec a x) as [[_ ->]|[_ ->]]; [right; exact Ha|left; reflexivity].
      + destruct (Nat.max_spec b x) as [[_ ->]|[_ ->]]; [left; reflexivity|right; exact Hb].
      + intros z [<-|Hz]; [lia|]. specialize (HM z Hz). lia. }
  destruct (M l NE) as [a [b [Ha [Hb HM]]]]. exists a, b. split; [exact Ha|split; [exact Hb|]].
  pose proof (HM a Ha) as Hab. split; [lia|].
  assert (I : incl l (seq a (S (b - a)))) by (intros x Hx; apply in_seq; specialize (HM x Hx); lia).
  pose proof (NoDup_incl_length ND I) as L. rewrite seq_length in L. exact L.
Qed.

Lemma jobs_safe t rel comp x interval jobs : 0 < ti_period t -> sporadic_jobs (ti_period t) (ti_response t) rel comp ->
  NoDup jobs -> (forall k, In k jobs -> pending_in rel comp x (Z.of_N interval) k) -> N.of_nat (length jobs) <= get_max_num_jobs t interval.
Proof.
  intros Hp [S1 S2] ND H. destruct jobs as [|j0 js] eqn:E; [apply N.le_0_l|]. rewrite <- E in *. clear E.
  assert (NE : jobs <> [] \/ jobs = []) by (destruct jobs; [right; reflexivity|left; discriminate]).
  destruct NE as [NE| ->]; [|apply N.le_0_l].
  destruct (nodup_spread jobs ND NE) as [a [b [Ha [Hb [Hab L]]]]].
  pose proof (H a Ha) as [_ A2]. pose proof (H b Hb) as [B1 _]. pose proof (S2 a) as Sa.
  pose proof (sporadic_spacing (ti_period t) rel (b - a) a S1) as SP. replace (b - a + a)%nat with b in SP by lia.
  unfold get_max_num_jobs. destruct (divide_with_ceil_spec (interval + ti_response t) (ti_period t) Hp) as [_ C].
  set (c := divide_with_ceil _ _) in *.
  assert (Q : (Z.of_nat (b - a) * Z.of_N (ti_period t) < Z.of_N (interval + ti_response t))%Z) by lia.
  assert (N.of_nat (b - a) * ti_period t < c * ti_period t) by lia.
  assert (N.of_nat (b - a) < c) by nia. lia.
Qed.

Lemma jobs_tight t x interval : 0 < ti_period t -> 0 < interval -> exists rel comp jobs, sporadic_jobs (ti_period t) (ti_response t) rel comp /\
  NoDup jobs /\ (forall k, In k jobs -> pending_in rel comp x (Z.of_N interval) k) /\ N.of_nat (length jobs) = get_max_num_jobs t interval.
Proof.
  intros Hp Hi. unfold get_max_num_jobs. destruct (divide_with_ceil_spec (interval + ti_response t) (ti_period t) Hp) as [A _].
  set (c := divide_with_ceil _ _) in *.
  exists (fun k => x - Z.of_N (ti_response t) + Z.of_nat k * Z.of_N (ti_period t))%Z, (fun k => x + Z.of_nat k * Z.of_N (ti_period t))%Z, (seq 0 (N.to_nat c)).
  split; [split; intros k; lia|]. split; [apply seq_NoDup|]. split; [|rewrite seq_length; lia].
  intros k Hk. apply in_seq in Hk. unfold pending_in. split; [|lia].
  destruct A as [A|A]; [lia|]. assert (N.of_nat k <= c - 1) by lia.
  assert (N.of_nat k * ti_period t < interval + ti_response t) by nia. lia.
Qed.
