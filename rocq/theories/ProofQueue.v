(** Soundness of suspension-based and k-exclusion blocking bounds. *)
From Coq Require Import NArith ZArith List Bool Sorted Permutation Lia Arith.
From Verif Require Import ModelLocking SpecLocking SpecQueue ProofLocking ProofSpin ProofLockingMono.
Import ListNotations.
Open Scope Z_scope.

(** * Counting instants *)
Lemma zrange_app a b c : a <= b -> b <= c -> zrange a c = zrange a b ++ zrange b c.
Proof.
  intros H1 H2. unfold zrange. replace (Z.to_nat (c - a)) with (Z.to_nat (b - a) + Z.to_nat (c - b))%nat by lia.
  rewrite seq_app, map_app. f_equal. cbn [plus].
  assert (G : forall n s, map (fun i => a + Z.of_nat i) (seq (s + Z.to_nat (b - a)) n) = map (fun i => b + Z.of_nat i) (seq s n)).
  { induction n as [|n IH]; intros s; [reflexivity|]. cbn [seq map]. f_equal; [lia|]. apply (IH (S s)). }
  apply (G _ 0%nat).
Qed.

Lemma in_zrange t a b : In t (zrange a b) <-> a <= t < b.
Proof.
  unfold zrange. rewrite in_map_iff. split.
  - intros [i [<- H]]. apply in_seq in H. lia.
  - intros H. exists (Z.to_nat (t - a)). split; [lia|]. apply in_seq. lia.
Qed.

Lemma zrange_length a b : Z.of_nat (length (zrange a b)) = Z.max 0 (b - a).
Proof. unfold zrange. rewrite map_length, seq_length. lia. Qed.

Lemma instants_all a b : instants (fun _ => true) a b = Z.max 0 (b - a).
Proof. unfold instants. rewrite <- zrange_length. do 2 f_equal. induction (zrange a b) as [|x r IH]; [reflexivity|]. cbn. rewrite IH. reflexivity. Qed.

Lemma instants_nonneg p a b : 0 <= instants p a b.
Proof. unfold instants. lia. Qed.

Definition at_instant (p : Z -> bool) (lo hi t : Z) : Z := if (lo <=? t) && (t <? hi) && p t then 1 else 0.

Lemma instants_window p lo hi L H : L <= lo -> lo <= hi -> hi <= H -> instants p lo hi = zsum (map (at_instant p lo hi) (zrange L H)).
Proof.
  intros A B C. rewrite (zrange_app L lo H), (zrange_app lo hi H) by lia. rewrite !map_app, !zsum_app.
  assert (Z0 : forall l, (forall t, In t l -> t < lo \/ hi <= t) -> zsum (map (at_instant p lo hi) l) = 0).
  { induction l as [|t l IH]; intros Hl; [reflexivity|]. cbn [map]. rewrite zsum_cons, IH by (intros; apply Hl; right; assumption). unfold at_instant.
    destruct (Hl t (or_introl eq_refl)).
    - destruct (Z.leb_spec lo t); [lia|reflexivity].
    - destruct (Z.ltb_spec t hi); [lia|]. rewrite andb_false_r. reflexivity. }
  rewrite (Z0 (zrange L lo)) by (intros t Ht; apply in_zrange in Ht; lia). rewrite (Z0 (zrange hi H)) by (intros t Ht; apply in_zrange in Ht; lia).
  assert (G : forall l, (forall t, In t l -> lo <= t < hi) -> zsum (map (at_instant p lo hi) l) = Z.of_nat (length (filter p l))).
  { induction l as [|t l IH]; intros Hl; [reflexivity|]. cbn [map filter]. rewrite zsum_cons, IH by (intros; apply Hl; right; assumption). unfold at_instant.
    destruct (Hl t (or_introl eq_refl)). destruct (Z.leb_spec lo t); [|lia]. destruct (Z.ltb_spec t hi); [|lia]. cbn [andb]. destruct (p t); cbn [length]; lia. }
  rewrite (G (zrange lo hi)) by (intros t Ht; apply in_zrange in Ht; lia). unfold instants. lia.
Qed.

Lemma zsum_le {A} (f g : A -> Z) l : (forall a, In a l -> f a <= g a) -> zsum (map f l) <= zsum (map g l).
Proof. induction l as [|a r IH]; intros H; [cbn; lia|]. cbn [map]. rewrite !zsum_cons. specialize (IH (fun x Hx => H x (or_intror Hx))). specialize (H a (or_introl eq_refl)). lia. Qed.

Lemma zsum_ext {A} (f g : A -> Z) l : (forall a, In a l -> f a = g a) -> zsum (map f l) = zsum (map g l).
Proof. intros H. rewrite (map_ext_in f g l H). reflexivity. Qed.

Lemma zsum_add {A} (f g : A -> Z) l : zsum (map (fun a => f a + g a) l) = zsum (map f l) + zsum (map g l).
Proof. induction l as [|a r IH]; [reflexivity|]. cbn [map]. rewrite !zsum_cons, IH. lia. Qed.

Lemma zsum_swap {A B} (f : A -> B -> Z) (l : list A) (m : list B) : zsum (map (fun a => zsum (map (f a) m)) l) = zsum (map (fun b => zsum (map (fun a => f a b) l)) m).
Proof.
  induction l as [|a r IH]; cbn [map].
  - induction m as [|b m IH]; [reflexivity|]. cbn [map]. rewrite zsum_cons, <- IH. reflexivity.
  - rewrite zsum_cons, IH, <- zsum_add. apply zsum_ext. intros b _. rewrite zsum_cons. reflexivity.
Qed.

Lemma zsum_nonneg {A} (f : A -> Z) l : (forall a, In a l -> 0 <= f a) -> 0 <= zsum (map f l).
Proof. induction l as [|a r IH]; intros H; [cbn; lia|]. cbn [map]. rewrite zsum_cons. specialize (IH (fun x Hx => H x (or_intror Hx))). specialize (H a (or_introl eq_refl)). lia. Qed.

Lemma zsum_in {A} (f : A -> Z) l a : (forall x, In x l -> 0 <= f x) -> In a l -> f a <= zsum (map f l).
Proof.
  induction l as [|x r IH]; intros H Hin; [destruct Hin|]. cbn [map]. rewrite zsum_cons. pose proof (zsum_nonneg f r (fun y Hy => H y (or_intror Hy))).
  destruct Hin as [->|Hin]; [lia|]. specialize (IH (fun y Hy => H y (or_intror Hy)) Hin). specialize (H x (or_introl eq_refl)). lia.
Qed.

Lemma window (l : list creq) : exists L H, L <= H /\ forall c, In c l -> (L <= cr_issue c /\ L <= cr_start c /\ cr_start c <= H /\ cr_end c <= H).
Proof.
  induction l as [|c r [L [H [A B]]]]; [exists 0, 0; split; [lia|intros c []]|].
  exists (Z.min L (Z.min (cr_issue c) (cr_start c))), (Z.max H (Z.max (cr_start c) (cr_end c))). split; [lia|].
  intros d [<-|Hd]; [lia|]. specialize (B d Hd). lia.
Qed.

Lemma fop_filter {A} (R : A -> A -> Prop) (p : A -> bool) l : ForallOrdPairs R l -> ForallOrdPairs R (filter p l).
Proof.
  induction 1 as [|x r F P IH]; cbn; [constructor|]. destruct (p x); [|exact IH]. constructor; [|exact IH].
  rewrite Forall_forall in *. intros y Hy. apply filter_In in Hy. apply F. apply Hy.
Qed.

(** blamed instants are covered by the blamed requests *)
Lemma blamed (T U : list creq) (pib exec : creq -> Z -> bool) :
  (forall c, In c T \/ In c U -> cr_issue c <= cr_start c <= cr_end c) -> ForallOrdPairs apart T ->
  (forall b t, In b T -> cr_issue b <= t < cr_start b -> pib b t = true -> exists a, In a U /\ cr_start a <= t < cr_end a /\ exec a t = true) ->
  zsum (map (fun b => instants (pib b) (cr_issue b) (cr_start b)) T) <= zsum (map (fun a => instants (exec a) (cr_start a) (cr_end a)) U).
Proof.
  intros HT HA HP. destruct (window (T ++ U)) as [L [H [LH HW]]].
  rewrite (zsum_ext _ (fun b => zsum (map (at_instant (pib b) (cr_issue b) (cr_start b)) (zrange L H))) T).
  2:{ intros b Hb. assert (X := HW b ltac:(apply in_app_iff; left; exact Hb)). assert (Y := HT b (or_introl Hb)). apply instants_window; lia. }
  rewrite (zsum_ext _ (fun a => zsum (map (at_instant (exec a) (cr_start a) (cr_end a)) (zrange L H))) U).
  2:{ intros b Hb. assert (X := HW b ltac:(apply in_app_iff; right; exact Hb)). assert (Y := HT b (or_intror Hb)). apply instants_window; lia. }
  rewrite (zsum_swap (fun b => at_instant (pib b) (cr_issue b) (cr_start b))), (zsum_swap (fun a => at_instant (exec a) (cr_start a) (cr_end a))). apply zsum_le. intros t _.
  assert (N : forall p lo hi, 0 <= at_instant p lo hi t) by (intros; unfold at_instant; destruct (_ && _); lia).
  assert (O : zsum (map (fun b => at_instant (pib b) (cr_issue b) (cr_start b) t) T) <= 1 /\
    (0 < zsum (map (fun b => at_instant (pib b) (cr_issue b) (cr_start b) t) T) -> exists b, In b T /\ cr_issue b <= t < cr_start b /\ pib b t = true)).
  { assert (HT' : forall c, In c T -> cr_issue c <= cr_start c <= cr_end c) by (intros c Hc; apply HT; left; exact Hc).
    clear - HT' HA N. induction HA as [|b r F P IH]; [split; [cbn; lia|cbn; lia]|]. cbn [map]. rewrite zsum_cons. destruct (IH (fun c Hc => HT' c (or_intror Hc))) as [I1 I2].
    pose proof (zsum_nonneg (fun b => at_instant (pib b) (cr_issue b) (cr_start b) t) r (fun b _ => N (pib b) _ _)) as NN.
    unfold at_instant at 1 3. destruct ((cr_issue b <=? t) && (t <? cr_start b) && pib b t) eqn:E.
    - apply andb_true_iff in E. destruct E as [E E3]. apply andb_true_iff in E. destruct E as [E1 E2]. apply Z.leb_le in E1. apply Z.ltb_lt in E2.
      split.
      + destruct (Z.ltb_spec 0 (zsum (map (fun b => at_instant (pib b) (cr_issue b) (cr_start b) t) r))) as [X|X]; [|lia].
        destruct (I2 X) as [b' [B1 [B2 B3]]]. rewrite Forall_forall in F. specialize (F b' B1). pose proof (HT' b (or_introl eq_refl)). pose proof (HT' b' (or_intror B1)). unfold apart in F. lia.
      + intros _. exists b. split; [left; reflexivity|]. split; [lia|exact E3].
    - split; [lia|]. intros X. destruct (I2 ltac:(lia)) as [b' [B1 B2]]. exists b'. split; [right; exact B1|exact B2]. }
  destruct O as [O1 O2]. destruct (Z.ltb_spec 0 (zsum (map (fun b => at_instant (pib b) (cr_issue b) (cr_start b) t) T))) as [X|X].
  - destruct (O2 X) as [b [B1 [B2 B3]]]. destruct (HP b t B1 B2 B3) as [a [A1 [A2 A3]]].
    pose proof (zsum_in (fun a => at_instant (exec a) (cr_start a) (cr_end a) t) U a (fun x _ => N (exec x) _ _) A1) as Y. cbn beta in Y.
    assert (Z1 : at_instant (exec a) (cr_start a) (cr_end a) t = 1); [|lia].
    unfold at_instant. rewrite A3. destruct (Z.leb_spec (cr_start a) t); [|lia]. destruct (Z.ltb_spec t (cr_end a)); [reflexivity|lia].
  - pose proof (zsum_nonneg (fun a => at_instant (exec a) (cr_start a) (cr_end a) t) U (fun a _ => N (exec a) _ _)). lia.
Qed.

(** * Contention among a subset of the tasks *)
Definition pcontention (info : list taskinfo) (P : taskinfo -> bool) (q : nat) : list rbound := sort_by_request_length (for_resource q (all_requests (filter P info))).

Lemma pcontention_cluster info c q : pcontention info (fun t => Nat.eqb (ti_cluster t) c) q = contention info c q.
Proof. reflexivity. Qed.

Lemma filter_true {A} (l : list A) : filter (fun _ => true) l = l.
Proof. induction l as [|a r IH]; cbn; congruence. Qed.

Lemma pcontention_all info q : nth q (sort_resources (split_by_resource info)) [] = pcontention info (fun _ => true) q.
Proof.
  unfold pcontention. rewrite filter_true. unfold sort_resources. change (@nil rbound) with (sort_by_request_length []) at 1. rewrite map_nth, split_by_resource_nth. reflexivity.
Qed.

Open Scope N_scope.

Lemma in_pcontention info P q r : In r (pcontention info P q) <-> In (rb_task r) info /\ P (rb_task r) = true /\ In (rb_req r) (ti_requests (rb_task r)) /\ q_res (rb_req r) = q.
Proof.
  unfold pcontention. split.
  - intros H. apply (Permutation_in _ (Permutation_sym (sort_len_perm rb_len _))) in H. apply filter_In in H. destruct H as [H1 H2].
    apply in_all_requests in H1. destruct H1 as [t [x [Ht [Hx ->]]]]. apply filter_In in Ht. destruct Ht as [Ht Hc]. apply Nat.eqb_eq in H2. cbn. auto.
  - intros [H1 [H2 [H3 H4]]]. apply (Permutation_in _ (sort_len_perm rb_len _)). apply filter_In. split; [|apply Nat.eqb_eq; exact H4].
    apply in_all_requests. exists (rb_task r), (rb_req r). split; [apply filter_In; split; [exact H1|exact H2]|].
    split; [exact H3|destruct r; reflexivity].
Qed.

Lemma pcontention_nodup info P q : wf_info info -> NoDup (map tkey (pcontention info P q)).
Proof.
  intros [W1 W2]. unfold pcontention. eapply Permutation_NoDup; [apply Permutation_map; apply sort_len_perm|].
  apply contention_keys_nodup.
  - apply nodup_filter_map. rewrite W1. apply seq_NoDup.
  - intros t Ht. apply filter_In in Ht. apply W2. apply Ht.
Qed.

Record pselection (info : list taskinfo) (P : taskinfo -> bool) (tsk q : nat) (interval max_total per_source : N) (sel : list (nat * N)) : Prop := {
  ps_sources : forall k l, In (k, l) sel -> k <> tsk /\ exists t x, nth_error info k = Some t /\ P t = true /\ In x (ti_requests t) /\ q_res x = q /\ l <= q_len x;
  ps_fits : forall t x, In t info -> In x (ti_requests t) -> q_res x = q -> fits (RB t x) interval (occurrences (ti_id t) sel);
  ps_per_source : forall k, occurrences k sel <= per_source;
  ps_total : N.of_nat (length sel) <= max_total }.

Lemma pselection_safe info P tsk q interval max_total per_source sel : wf_info info ->
  pselection info P tsk q interval max_total per_source sel ->
  total_length sel <= i_len (bound_blocking (pcontention info P q) interval max_total per_source tsk 0) /\
  N.of_nat (length sel) <= i_count (bound_blocking (pcontention info P q) interval max_total per_source tsk 0).
Proof.
  intros W [S1 S2 S3 S4]. unfold bound_blocking. rewrite (bb_loop_greedy tkey), iadd_0_l.
  apply greedy_safe.
  - unfold sources. rewrite map_map. apply (pcontention_nodup info P q W).
  - apply sources_decreasing, sort_len_sorted.
  - intros k l H. destruct (S1 k l H) as [NE [t [x [A [B [C [D E]]]]]]]. destruct (wf_nth info k t W A) as [Ei Ht].
    exists (k, avail (fun t => Nat.eqb (ti_id t) tsk || (ti_prio t <? 0)) interval per_source (RB t x), q_len x).
    split; [|split; [reflexivity|exact E]]. unfold sources. apply in_map_iff. exists (RB t x). split; [unfold tkey; cbn; rewrite Ei; reflexivity|].
    apply in_pcontention. cbn. auto.
  - intros p H. unfold sources in H. apply in_map_iff in H. destruct H as [r [<- H]]. unfold skey, savail; cbn [fst snd].
    apply in_pcontention in H. destruct H as [H1 [H2 [H3 H4]]].
    destruct (Nat.eqb_spec (ti_id (rb_task r)) tsk) as [E|E].
    + rewrite occ_none; [apply N.le_0_l|]. intros l Hl. destruct (S1 _ _ Hl) as [NE _]. unfold tkey in NE. congruence.
    + apply avail_fits; [apply W; exact H1|apply S3| |rewrite prio_excl; apply Nat.eqb_neq; exact E].
      specialize (S2 _ _ H1 H3 H4). destruct r; exact S2.
  - exact S4.
Qed.

Lemma shorten_occ th k sel : occurrences k (shorten th sel) = occurrences k sel.
Proof. unfold occurrences, shorten. rewrite filter_map, map_length. reflexivity. Qed.

Lemma pselection_shorten info P tsk q interval max_total per_source sel th : wf_info info ->
  pselection info P tsk q interval max_total per_source sel ->
  total_length (shorten th sel) <= value (fun x => x - th) (add_blocking interval per_source tsk (pcontention info P q) max_total).
Proof.
  intros W [S1 S2 S3 S4]. rewrite add_blocking_value.
  refine (proj1 (greedy_safe _ _ _ max_total (shorten th sel) _ _ _)).
  - rewrite map_map. apply (pcontention_nodup info P q W).
  - assert (D : forall c, sorted_by_length c -> decreasing (map (fun r => (tkey r, avail (fun t => Nat.eqb (ti_id t) tsk) interval per_source r, rb_len r - th)) c)).
    { clear. intros c Hs. induction Hs as [|a l H IH FA]; cbn [map]; constructor; [apply IH|].
      rewrite Forall_forall in *. intros p Hp. apply in_map_iff in Hp. destruct Hp as [r [<- Hp]]. specialize (FA r Hp). unfold slen; cbn [snd]. lia. }
    apply D, sort_len_sorted.
  - intros k l H. unfold shorten in H. apply in_map_iff in H. destruct H as [[k' l'] [E0 H]]. cbn [fst snd] in E0. injection E0 as <- <-.
    destruct (S1 k' l' H) as [NE [t [x [A [B [C [D E]]]]]]]. destruct (wf_nth info k' t W A) as [Ei Ht].
    exists (k', avail (fun t => Nat.eqb (ti_id t) tsk) interval per_source (RB t x), q_len x - th).
    split; [|split; [reflexivity|unfold slen; cbn [snd]; lia]]. apply in_map_iff. exists (RB t x). split; [unfold tkey; cbn; rewrite Ei; reflexivity|].
    apply in_pcontention. cbn. auto.
  - intros p H. apply in_map_iff in H. destruct H as [r [<- H]]. unfold skey, savail; cbn [fst snd]. rewrite shorten_occ.
    apply in_pcontention in H. destruct H as [H1 [H2 [H3 H4]]].
    destruct (Nat.eqb_spec (ti_id (rb_task r)) tsk) as [E|E].
    + rewrite occ_none; [apply N.le_0_l|]. intros l Hl. destruct (S1 _ _ Hl) as [NE _]. unfold tkey in NE. congruence.
    + apply avail_fits; [apply W; exact H1|apply S3| |apply Nat.eqb_neq; exact E].
      specialize (S2 _ _ H1 H3 H4). destruct r; exact S2.
  - unfold shorten. rewrite map_length. exact S4.
Qed.

(** * Requests that block a job *)
Open Scope Z_scope.

Lemma fop_apart (l : list creq) (p : creq -> bool) : ForallOrdPairs (fun a b => cr_task a = cr_task b -> apart a b) l ->
  (forall a b, In a l -> In b l -> p a = true -> p b = true -> ~ apart a b) -> NoDup (map cr_task (filter p l)).
Proof.
  intros F. induction F as [|x r F1 P IH]; intros H; cbn [filter map]; [constructor|].
  assert (IH' := IH (fun a b Ha Hb => H a b (or_intror Ha) (or_intror Hb))). destruct (p x) eqn:E; [|exact IH'].
  cbn [map]. constructor; [|exact IH']. intros X. apply in_map_iff in X. destruct X as [y [E1 Y]]. apply filter_In in Y. destruct Y as [Y1 Y2].
  rewrite Forall_forall in F1. apply (H x y (or_introl eq_refl) (or_intror Y1) E Y2). apply F1; [exact Y1|congruence].
Qed.

(** two requests in a list with ordered pairs *)
Lemma fop_cases {A} (R : A -> A -> Prop) l a b : ForallOrdPairs R l -> In a l -> In b l -> a = b \/ R a b \/ R b a.
Proof.
  induction 1 as [|x r F P IH]; intros Ha Hb; [destruct Ha|]. rewrite Forall_forall in F.
  destruct Ha as [->|Ha], Hb as [->|Hb]; auto.
Qed.

Lemma nodup_count_1 (l : list creq) i : NoDup (map cr_task l) -> (length (filter (fun a => Nat.eqb (cr_task a) i) l) <= 1)%nat.
Proof.
  induction l as [|a r IH]; intros ND; [cbn; lia|]. cbn [map] in ND. inversion ND as [|x y NI ND']; subst. cbn [filter].
  destruct (Nat.eqb_spec (cr_task a) i) as [E|E]; [|auto]. cbn [length]. replace (filter (fun a0 => Nat.eqb (cr_task a0) i) r) with (@nil creq); [cbn; lia|].
  symmetry. clear - NI E. induction r as [|z r IH]; [reflexivity|]. cbn in *. destruct (Nat.eqb_spec (cr_task z) i) as [E'|E'].
  - exfalso. apply NI. left. congruence.
  - apply IH. intros X. apply NI. right. exact X.
Qed.

Lemma filter_filter {A} (p q : A -> bool) l : filter p (filter q l) = filter (fun a => q a && p a) l.
Proof. induction l as [|a r IH]; [reflexivity|]. cbn. destruct (q a); cbn; [destruct (p a); cbn; congruence|exact IH]. Qed.

Lemma filter_sub {A} (p q : A -> bool) l : (forall a, In a l -> p a = true -> q a = true) -> (length (filter p l) <= length (filter q l))%nat.
Proof.
  induction l as [|a r IH]; intros Hpq; [reflexivity|]. cbn. assert (I := IH (fun x Hx => Hpq x (or_intror Hx))). specialize (Hpq a (or_introl eq_refl)).
  destruct (p a); [rewrite Hpq by reflexivity; cbn; lia|destruct (q a); cbn; lia].
Qed.

(** the requests of one job *)
Definition of_job (tr : list creq) (tsk : taskinfo) (k : nat) : list creq := filter (is_job (ti_id tsk) k) tr.

Lemma of_job_in tr tsk k b : In b (of_job tr tsk k) <-> In b tr /\ cr_task b = ti_id tsk /\ cr_job b = k.
Proof. unfold of_job. rewrite filter_In. unfold is_job. rewrite andb_true_iff, !Nat.eqb_eq. tauto. Qed.

Lemma of_job_apart tr tsk k : ForallOrdPairs (fun a b => cr_task a = cr_task b -> apart a b) tr -> ForallOrdPairs apart (of_job tr tsk k).
Proof.
  intros H. pose proof (fop_filter _ (is_job (ti_id tsk) k) _ H) as F. revert F. apply fop_impl_in.
  intros a b Ha Hb F. apply (of_job_in tr tsk k) in Ha. apply (of_job_in tr tsk k) in Hb. apply F. destruct Ha as [_ [-> _]], Hb as [_ [-> _]]. reflexivity.
Qed.

Lemma blocked_time_eq tr tsk k pib : blocked_time (ti_id tsk) k pib tr = zsum (map (fun b => instants (pib b) (cr_issue b) (cr_start b)) (of_job tr tsk k)).
Proof. unfold blocked_time, of_job. induction tr as [|c r IH]; [reflexivity|]. cbn [fold_right filter]. destruct (is_job (ti_id tsk) k c); [|exact IH]. cbn [map]. rewrite zsum_cons, IH. reflexivity. Qed.

Section Blockers.
Variables (info : list taskinfo) (rel comp : nat -> nat -> Z) (res : nat) (exec : creq -> Z -> bool) (tr : list creq).
Variable W : wf_info info.
Variable SJ : forall t, In t info -> sporadic_jobs (ti_period t) (ti_response t) (rel (ti_id t)) (comp (ti_id t)).
Variable LR : lock_requests info rel comp res exec tr.
Variables (tsk : taskinfo) (k : nat).
Variable Htsk : In tsk info.
Variable issued : N.
Variable mine : list creq.
Variable Hmine : forall b, In b mine -> In b tr /\ cr_task b = ti_id tsk /\ cr_job b = k.
Variable Hapart : ForallOrdPairs apart mine.
Variable Hissued : (N.of_nat (length mine) <= issued)%N.
Variable blocks : creq -> creq -> bool.
Variable Hblocks : forall a b, In a tr -> In b mine -> blocks a b = true -> cr_task a <> ti_id tsk /\ cr_start a < cr_start b /\ cr_issue b < cr_end a.

Definition hit : list creq := filter (fun a => existsb (blocks a) mine) tr.

Lemma hit_in a : In a hit <-> In a tr /\ exists b, In b mine /\ blocks a b = true.
Proof. unfold hit. rewrite filter_In, existsb_exists. tauto. Qed.

Lemma hit_facts a : In a hit -> In a tr /\ cr_task a <> ti_id tsk /\
  rel (cr_task a) (cr_job a) < rel (ti_id tsk) k + Z.of_N (ti_response tsk) /\ rel (ti_id tsk) k <= comp (cr_task a) (cr_job a).
Proof.
  intros Ha. apply hit_in in Ha. destruct Ha as [Ia [b [Hb Hab]]]. destruct (Hblocks a b Ia Hb Hab) as [B1 [B2 B3]].
  apply Hmine in Hb. destruct Hb as [Ib [Tb Jb]].
  pose proof (lr_job _ _ _ _ _ _ LR a Ia) as Ja. pose proof (lr_job _ _ _ _ _ _ LR b Ib) as Jb'. rewrite Tb, Jb in Jb'.
  pose proof (proj2 (SJ tsk Htsk) k) as R. pose proof (lr_times _ _ _ _ _ _ LR b Ib) as Xb. pose proof (lr_times _ _ _ _ _ _ LR a Ia) as Xa.
  split; [exact Ia|]. split; [exact B1|]. lia.
Qed.

Lemma hit_count p K : (forall b, In b mine -> (N.of_nat (length (filter (fun a => blocks a b && p a) tr)) <= K)%N) -> (N.of_nat (length (filter p hit)) <= issued * K)%N.
Proof.
  intros H. assert (G : (N.of_nat (length (filter p hit)) <= N.of_nat (length mine) * K)%N); [|nia].
  unfold hit. rewrite filter_filter. clear Hblocks Hissued Hmine Hapart. induction mine as [|b r IH].
  - cbn [existsb length]. clear. induction tr as [|a l IH]; [cbn; lia|exact IH].
  - specialize (IH (fun x Hx => H x (or_intror Hx))). specialize (H b (or_introl eq_refl)). cbn [length].
    assert (L : (length (filter (fun a => existsb (blocks a) (b :: r) && p a) tr) <= length (filter (fun a => blocks a b && p a) tr) + length (filter (fun a => existsb (blocks a) r && p a) tr))%nat).
    { clear. induction tr as [|a l IH]; [cbn; lia|]. cbn [filter existsb] in *. destruct (blocks a b), (existsb (blocks a) r), (p a); cbn [orb andb length] in *; lia. }
    nia.
Qed.

Lemma hit_time (pib : creq -> Z -> bool) :
  (forall b t, In b mine -> cr_issue b <= t < cr_start b -> pib b t = true -> exists a, In a tr /\ blocks a b = true /\ cr_start a <= t < cr_end a /\ exec a t = true) ->
  zsum (map (fun b => instants (pib b) (cr_issue b) (cr_start b)) mine) <= zsum (map (fun a => instants (exec a) (cr_start a) (cr_end a)) hit).
Proof.
  intros H. apply blamed.
  - intros c [Hc|Hc].
    + apply Hmine in Hc. apply (lr_times _ _ _ _ _ _ LR). apply Hc.
    + apply hit_in in Hc. apply (lr_times _ _ _ _ _ _ LR). apply Hc.
  - exact Hapart.
  - intros b t Hb Ht Hp. destruct (H b t Hb Ht Hp) as [a [A1 [A2 [A3 A4]]]]. exists a. split; [|auto]. apply hit_in. split; [exact A1|]. exists b. auto.
Qed.

Definition weight (a : creq) : N := Z.to_N (instants (exec a) (cr_start a) (cr_end a)).
Definition of_task (P : taskinfo -> bool) (a : creq) : bool := match nth_error info (cr_task a) with Some t => P t | None => false end.
Definition hit_sel (P : taskinfo -> bool) : list (nat * N) := map (fun a => (cr_task a, weight a)) (filter (of_task P) hit).

Lemma occ_hit_sel P i : occurrences i (hit_sel P) = N.of_nat (length (filter (fun a => of_task P a && Nat.eqb (cr_task a) i) hit)).
Proof. unfold occurrences, hit_sel. f_equal. rewrite filter_map, map_length. cbn [fst]. rewrite filter_filter. reflexivity. Qed.

Lemma hit_pselection P max_total per_source :
  (forall i, (N.of_nat (length (filter (fun a => of_task P a && Nat.eqb (cr_task a) i) hit)) <= per_source)%N) ->
  (N.of_nat (length (filter (of_task P) hit)) <= max_total)%N ->
  pselection info P (ti_id tsk) res (ti_response tsk) max_total per_source (hit_sel P).
Proof.
  intros HS HM. constructor.
  - intros i l Hin. unfold hit_sel in Hin. apply in_map_iff in Hin. destruct Hin as [a [E Ha]]. injection E as <- <-. apply filter_In in Ha. destruct Ha as [Ha Hc].
    destruct (hit_facts a Ha) as [A1 [A2 _]]. split; [exact A2|].
    destruct (lr_spec _ _ _ _ _ _ LR a A1) as [t [q [N1 [N2 [N3 N4]]]]]. exists t, q. unfold of_task in Hc. rewrite N1 in Hc.
    repeat split; auto. unfold weight. lia.
  - intros t x Ht Hx Ex. rewrite occ_hit_sel.
    set (L := filter (fun a => Nat.eqb (cr_task a) (ti_id t)) hit).
    assert (LE : (length (filter (fun a => of_task P a && Nat.eqb (cr_task a) (ti_id t)) hit) <= length L)%nat).
    { apply filter_sub. intros a _ X. apply andb_true_iff in X. apply X. }
    assert (GJ : (length L <= length (nodup Nat.eq_dec (map cr_job L)) * N.to_nat (q_num x))%nat).
    { apply group_by_job. intros j. pose proof (lr_number _ _ _ _ _ _ LR (ti_id t) j t x (wf_id info t W Ht) Hx Ex) as NB.
      unfold L, hit. rewrite !filter_filter.
      assert ((length (filter (fun a => existsb (blocks a) mine && (Nat.eqb (cr_task a) (ti_id t) && Nat.eqb (cr_job a) j)) tr) <= length (filter (is_job (ti_id t) j) tr))%nat); [|lia].
      apply filter_sub. intros a _ X. apply andb_true_iff in X. apply X. }
    assert (JB : (N.of_nat (length (nodup Nat.eq_dec (map cr_job L))) <= get_max_num_jobs t (ti_response tsk))%N).
    { apply (jobs_safe t (rel (ti_id t)) (comp (ti_id t)) (rel (ti_id tsk) k)).
      - apply W; exact Ht.
      - apply SJ; exact Ht.
      - apply NoDup_nodup.
      - intros j Hj. apply nodup_In in Hj. apply in_map_iff in Hj. destruct Hj as [a [<- Ha]]. apply filter_In in Ha. destruct Ha as [Ha Et]. apply Nat.eqb_eq in Et.
        destruct (hit_facts a Ha) as [_ [_ [B1 B2]]]. rewrite Et in B1, B2. split; assumption. }
    apply fits_iff; [cbn; apply W; exact Ht|]. unfold get_max_num_requests; cbn [rb_task rb_req]. nia.
  - intros i. rewrite occ_hit_sel. apply HS.
  - unfold hit_sel. rewrite map_length. exact HM.
Qed.

Lemma hit_weight P : zsum (map (fun a => instants (exec a) (cr_start a) (cr_end a)) (filter (of_task P) hit)) = Z.of_N (total_length (hit_sel P)).
Proof.
  unfold hit_sel. generalize (filter (of_task P) hit). induction l as [|a l IH]; [reflexivity|]. cbn [map total_length fold_right snd]. rewrite zsum_cons, IH. unfold total_length, weight.
  pose proof (instants_nonneg (exec a) (cr_start a) (cr_end a)). lia.
Qed.

Lemma hit_all : filter (of_task (fun _ => true)) hit = hit.
Proof.
  assert (G : forall l, (forall a, In a l -> of_task (fun _ => true) a = true) -> filter (of_task (fun _ => true)) l = l).
  { induction l as [|a l IH]; intros H; [reflexivity|]. cbn. rewrite (H a (or_introl eq_refl)), IH; [reflexivity|]. intros; apply H; right; assumption. }
  apply G. intros a Ha. destruct (hit_facts a Ha) as [A1 _]. destruct (lr_spec _ _ _ _ _ _ LR a A1) as [t [q [N1 _]]]. unfold of_task. rewrite N1. reflexivity.
Qed.

(** the bound of a single contention set *)
Lemma blocked_global (pib : creq -> Z -> bool) max_total src :
  (forall b t, In b mine -> cr_issue b <= t < cr_start b -> pib b t = true -> exists a, In a tr /\ blocks a b = true /\ cr_start a <= t < cr_end a /\ exec a t = true) ->
  (forall b, In b mine -> (N.of_nat (length (filter (fun a => blocks a b) tr)) <= max_total)%N) ->
  (forall b i, In b mine -> (N.of_nat (length (filter (fun a => blocks a b && Nat.eqb (cr_task a) i) tr)) <= src)%N) ->
  zsum (map (fun b => instants (pib b) (cr_issue b) (cr_start b)) mine) <= Z.of_N (i_len (bound_blocking (pcontention info (fun _ => true) res) (ti_response tsk) (issued * max_total) (issued * src) (ti_id tsk) 0)).
Proof.
  intros H1 H2 H3. etransitivity; [apply hit_time; exact H1|]. rewrite <- hit_all at 1. rewrite hit_weight. apply N2Z.inj_le.
  apply (pselection_safe info (fun _ => true) (ti_id tsk) res (ti_response tsk) (issued * max_total) (issued * src) (hit_sel (fun _ => true)) W).
  apply hit_pselection.
  - intros i. rewrite <- filter_filter, hit_all. apply hit_count. intros b Hb. apply H3. exact Hb.
  - rewrite hit_all. assert (C := hit_count (fun _ => true) max_total). rewrite filter_true in C. apply C. intros b Hb.
    rewrite (filter_ext _ (fun a => blocks a b)) by (intros; apply andb_true_r). apply H2. exact Hb.
Qed.
End Blockers.

(** ** Global FMLP *)
Definition fifo_blocks (a b : creq) : bool := (cr_issue b <? cr_end a) && (cr_start a <? cr_start b).

Lemma fmlp_resource_safe info rel comp res exec pib tr tsk q k : wf_info info ->
  (forall t, In t info -> sporadic_jobs (ti_period t) (ti_response t) (rel (ti_id t)) (comp (ti_id t))) ->
  fmlp_execution info rel comp res exec pib tr -> In tsk info -> In q (ti_requests tsk) -> q_res q = res ->
  blocked_time (ti_id tsk) k pib tr <= Z.of_N (i_len (bound_blocking (pcontention info (fun _ => true) res) (ti_response tsk) (q_num q * (N.of_nat (length info) - 1)) (q_num q * 1) (ti_id tsk) 0)).
Proof.
  intros W SJ [LR FF PR] Ht Hq Eq.
  assert (Hn : (N.of_nat (length (of_job tr tsk k)) <= q_num q)%N) by (apply (lr_number _ _ _ _ _ _ LR (ti_id tsk) k tsk q (wf_id info tsk W Ht) Hq Eq)).
  assert (PB : forall a b, In a tr -> In b tr -> fifo_blocks a b = true -> cr_issue a <= cr_issue b < cr_end a /\ cr_start a < cr_start b).
  { intros a b Ha Hb X. apply andb_true_iff in X. destruct X as [X1 X2]. apply Z.ltb_lt in X1, X2.
    pose proof (lr_times _ _ _ _ _ _ LR a Ha). pose proof (lr_times _ _ _ _ _ _ LR b Hb).
    destruct (fop_cases _ _ a b FF Ha Hb) as [E|[E|E]]; [subst; lia|lia|lia]. }
  assert (ND : forall b, In b (of_job tr tsk k) -> NoDup (map cr_task (filter (fun a => fifo_blocks a b) tr))).
  { intros b Hb. apply of_job_in in Hb. destruct Hb as [Ib _]. apply fop_apart; [apply (lr_sequential _ _ _ _ _ _ LR)|].
    intros x y Hx Hy Px Py AP. destruct (PB x b Hx Ib Px), (PB y b Hy Ib Py). unfold apart in AP. lia. }
  assert (NT : forall a b, In a tr -> In b (of_job tr tsk k) -> fifo_blocks a b = true -> cr_task a <> ti_id tsk).
  { intros a b Ha Hb X E. apply of_job_in in Hb. destruct Hb as [Ib [Tb _]]. destruct (PB a b Ha Ib X) as [P1 P2].
    pose proof (lr_times _ _ _ _ _ _ LR a Ha). pose proof (lr_times _ _ _ _ _ _ LR b Ib).
    destruct (fop_cases _ _ a b (lr_sequential _ _ _ _ _ _ LR) Ha Ib) as [E'|[E'|E']]; [subst; lia| |]; unfold apart in E'; specialize (E' ltac:(congruence)); lia. }
  rewrite blocked_time_eq.
  apply (blocked_global info rel comp res exec tr W SJ LR tsk k Ht (q_num q) (of_job tr tsk k) (fun b => proj1 (of_job_in tr tsk k b)) (of_job_apart tr tsk k (lr_sequential _ _ _ _ _ _ LR)) Hn fifo_blocks).
  - intros a b Ha Hb X. split; [exact (NT a b Ha Hb X)|]. apply of_job_in in Hb. destruct (PB a b Ha (proj1 Hb) X). lia.
  - intros b t Hb Hbt Hp. apply of_job_in in Hb. destruct (PR b t (proj1 Hb) Hbt Hp) as [a [A1 [A2 A3]]]. exists a. split; [exact A1|]. split; [|auto].
    unfold fifo_blocks. apply andb_true_iff. split; apply Z.ltb_lt; lia.
  - intros b Hb. rewrite <- (map_length cr_task). apply (nodup_lt_length_avoid _ _ (ti_id tsk) (ND b Hb)).
    + intros i Hi. apply in_map_iff in Hi. destruct Hi as [a [<- Ha]]. apply filter_In in Ha. destruct Ha as [Ha X]. split; [|exact (NT a b Ha Hb X)].
      destruct (lr_spec _ _ _ _ _ _ LR a Ha) as [t [x [N1 _]]]. assert (cr_task a < length info)%nat by (apply nth_error_Some; congruence). lia.
    + pose proof (wf_id info tsk W Ht) as N1. assert (ti_id tsk < length info)%nat by (apply nth_error_Some; congruence). lia.
  - intros b i Hb. rewrite <- filter_filter. pose proof (nodup_count_1 _ i (ND b Hb)). lia.
Qed.

(** sums over the resources of a task *)
Lemma total_blocked_sum i k pib tr (f : reqspec -> N) rqs : (forall q, In q rqs -> blocked_time i k (pib (q_res q)) (tr (q_res q)) <= Z.of_N (f q)) ->
  total_blocked i k pib tr (map q_res rqs) <= Z.of_N (sumN (map f rqs)).
Proof.
  unfold total_blocked. rewrite map_map. induction rqs as [|q r IH]; intros H; [cbn; lia|]. cbn [map fold_right sumN].
  specialize (IH (fun x Hx => H x (or_intror Hx))). specialize (H q (or_introl eq_refl)). unfold sumN in IH. lia.
Qed.

Lemma global_fmlp_safe info rel comp exec pib tr tsk k : wf_info info ->
  (forall t, In t info -> sporadic_jobs (ti_period t) (ti_response t) (rel (ti_id t)) (comp (ti_id t))) ->
  (forall res, fmlp_execution info rel comp res (exec res) (pib res) (tr res)) -> In tsk info ->
  total_blocked (ti_id tsk) k pib tr (map q_res (ti_requests tsk)) <= Z.of_N (i_len (nth (ti_id tsk) (global_fmlp_bounds info) inter0)).
Proof.
  intros W SJ H Ht. unfold global_fmlp_bounds.
  set (F := fun tsk => fold_left _ (ti_requests tsk) inter0). rewrite (nth_indep _ inter0 (F tsk)) by (rewrite map_length; apply nth_error_Some; rewrite (wf_id info tsk W Ht); discriminate).
  rewrite map_nth. rewrite (nth_error_nth info (ti_id tsk) tsk (wf_id info tsk W Ht)). unfold F.
  rewrite fold_iadd, iadd_0_l; cbn [i_len].
  apply (total_blocked_sum (ti_id tsk) k pib tr (fun req => i_len (bound_blocking (nth (q_res req) (sort_resources (split_by_resource info)) []) (ti_response tsk) ((N.of_nat (length info) - 1) * q_num req) (q_num req) (ti_id tsk) 0))).
  intros q Hq. rewrite pcontention_all. pose proof (fmlp_resource_safe info rel comp (q_res q) (exec (q_res q)) (pib (q_res q)) (tr (q_res q)) tsk q k W SJ (H (q_res q)) Ht Hq eq_refl) as S.
  rewrite N.mul_1_r, N.mul_comm in S. exact S.
Qed.

(** ** Global OMLP *)
Definition omlp_blocks (enq : creq -> Z) (a b : creq) : bool :=
  (cr_start a <? cr_start b) && (((enq a <=? cr_issue b) && (cr_issue b <? cr_end a)) || (enq b <? cr_end a)).

Lemma filter_strict {A} (p q : A -> bool) l b : (forall a, In a l -> p a = true -> q a = true) -> In b l -> q b = true -> p b = false -> (length (filter p l) < length (filter q l))%nat.
Proof.
  intros H Hb Q P. induction l as [|a r IH]; [destruct Hb|]. assert (HR : forall x, In x r -> p x = true -> q x = true) by (intros; apply H; [right|]; assumption).
  pose proof (filter_sub p q r HR) as S. cbn. destruct Hb as [->|Hb].
  - rewrite P, Q. cbn. lia.
  - specialize (IH HR Hb). specialize (H a (or_introl eq_refl)). destruct (p a); [rewrite H by reflexivity; cbn; lia|destruct (q a); cbn; lia].
Qed.

Lemma filter_or {A} (p q r : A -> bool) l : (forall a, In a l -> p a = true -> q a = true \/ r a = true) -> (length (filter p l) <= length (filter q l) + length (filter r l))%nat.
Proof.
  induction l as [|a l IH]; intros H; [cbn; lia|]. assert (I := IH (fun x Hx => H x (or_intror Hx))). specialize (H a (or_introl eq_refl)). cbn.
  destruct (p a); [destruct (H eq_refl) as [E|E]; rewrite E; [destruct (r a)|destruct (q a)]; cbn; lia|destruct (q a), (r a); cbn; lia].
Qed.

Lemma fop_conj {A} (R S : A -> A -> Prop) l : ForallOrdPairs R l -> ForallOrdPairs S l -> ForallOrdPairs (fun a b => R a b /\ S a b) l.
Proof.
  induction 1 as [|x r F P IH]; intros H; constructor; inversion H as [|y z F' P']; subst.
  - rewrite Forall_forall in *. auto.
  - auto.
Qed.

Lemma fop_apart_task (l : list creq) (p : creq -> bool) : ForallOrdPairs (fun a b => cr_task a = cr_task b -> apart a b) l ->
  (forall a b, In a l -> In b l -> p a = true -> p b = true -> cr_task a = cr_task b -> ~ apart a b) -> NoDup (map cr_task (filter p l)).
Proof.
  intros F. induction F as [|x r F1 P IH]; intros H; cbn [filter map]; [constructor|].
  assert (IH' := IH (fun a b Ha Hb => H a b (or_intror Ha) (or_intror Hb))). destruct (p x) eqn:E; [|exact IH'].
  cbn [map]. constructor; [|exact IH']. intros X. apply in_map_iff in X. destruct X as [y [E1 Y]]. apply filter_In in Y. destruct Y as [Y1 Y2].
  rewrite Forall_forall in F1. apply (H x y (or_introl eq_refl) (or_intror Y1) E Y2); [congruence|]. apply F1; [exact Y1|congruence].
Qed.

Lemma sources_length info res tsk q l : wf_info info -> In tsk info -> In q (ti_requests tsk) -> q_res q = res -> NoDup l ->
  (forall i, In i l -> i <> ti_id tsk /\ exists t x, nth_error info i = Some t /\ In x (ti_requests t) /\ q_res x = res) ->
  (length l + 1 <= length (pcontention info (fun _ => true) res))%nat.
Proof.
  intros W Ht Hq Eq ND H. rewrite <- (map_length tkey (pcontention info (fun _ => true) res)).
  assert (L : (length (ti_id tsk :: l) <= length (map tkey (pcontention info (fun _ => true) res)))%nat); [|cbn [length] in L; lia].
  apply NoDup_incl_length.
  - constructor; [|exact ND]. intros X. apply H in X. tauto.
  - intros i [<-|Hi].
    + apply in_map_iff. exists (RB tsk q). split; [reflexivity|]. apply in_pcontention. cbn. auto.
    + destruct (H i Hi) as [_ [t [x [N1 [N2 N3]]]]]. destruct (wf_nth info i t W N1) as [E1 E2]. apply in_map_iff. exists (RB t x). split; [exact E1|]. apply in_pcontention. cbn. auto.
Qed.

Section OMLP.
Variables (info : list taskinfo) (m : N) (rel comp prio : nat -> nat -> Z) (res : nat) (enq : creq -> Z) (exec pib : creq -> Z -> bool) (tr : list creq).
Variable W : wf_info info.
Variable SJ : forall t, In t info -> sporadic_jobs (ti_period t) (ti_response t) (rel (ti_id t)) (comp (ti_id t)).
Variable OM : omlp_execution info m rel comp prio res enq exec pib tr.
Variables (tsk : taskinfo) (q : reqspec) (k : nat).
Variable Htsk : In tsk info.
Variable Hq : In q (ti_requests tsk).
Variable Eq : q_res q = res.
Let LR := om_requests _ _ _ _ _ _ _ _ _ _ OM.

Lemma omlp_order a b : In a tr -> In b tr -> cr_start a < cr_start b -> enq a <= enq b /\ cr_end a <= cr_start b /\
  (cr_issue b < enq a -> cr_issue a < enq a /\ prio (cr_task a) (cr_job a) < prio (cr_task b) (cr_job b)).
Proof.
  intros Ha Hb L. pose proof (lr_times _ _ _ _ _ _ LR a Ha). pose proof (lr_times _ _ _ _ _ _ LR b Hb).
  destruct (fop_cases _ _ a b (fop_conj _ _ _ (om_fifo _ _ _ _ _ _ _ _ _ _ OM) (om_overtake _ _ _ _ _ _ _ _ _ _ OM)) Ha Hb) as [E|[[E1 E2]|[E1 E2]]]; [subst; lia|split; [apply E1|split; [apply E1|exact E2]]|lia].
Qed.

Lemma omlp_blocks_facts a b : In a tr -> In b tr -> omlp_blocks enq a b = true ->
  cr_start a < cr_start b /\ cr_issue b < cr_end a /\ enq a <= enq b /\ cr_end a <= cr_start b /\ (enq a <= cr_issue b \/ enq b < cr_end a).
Proof.
  intros Ha Hb X. apply andb_true_iff in X. destruct X as [X1 X2]. apply Z.ltb_lt in X1. destruct (omlp_order a b Ha Hb X1) as [O1 [O2 _]].
  pose proof (om_enq _ _ _ _ _ _ _ _ _ _ OM b Hb). apply orb_true_iff in X2. destruct X2 as [X2|X2].
  - apply andb_true_iff in X2. destruct X2 as [X2 X3]. apply Z.leb_le in X2. apply Z.ltb_lt in X3. lia.
  - apply Z.ltb_lt in X2. lia.
Qed.

Lemma omlp_not_mine a b : In a tr -> In b tr -> cr_task b = ti_id tsk -> cr_start a < cr_start b -> cr_issue b < cr_end a -> cr_task a <> ti_id tsk.
Proof.
  intros Ha Hb Tb L1 L2 E. pose proof (lr_times _ _ _ _ _ _ LR a Ha). pose proof (lr_times _ _ _ _ _ _ LR b Hb).
  destruct (fop_cases _ _ a b (lr_sequential _ _ _ _ _ _ LR) Ha Hb) as [E'|[E'|E']]; [subst; lia| |]; unfold apart in E'; specialize (E' ltac:(congruence)); lia.
Qed.

Lemma omlp_progress_blocks b t : In b tr -> cr_issue b <= t < cr_start b -> pib b t = true ->
  exists a, In a tr /\ omlp_blocks enq a b = true /\ cr_start a <= t < cr_end a /\ exec a t = true.
Proof.
  intros Hb Ht Hp. destruct (om_progress _ _ _ _ _ _ _ _ _ _ OM b t Hb Ht Hp) as [a [A1 [A2 A3]]]. exists a. split; [exact A1|]. split; [|auto].
  unfold omlp_blocks. apply andb_true_iff. split; [apply Z.ltb_lt; lia|]. apply orb_true_iff.
  destruct (Z.ltb_spec t (enq b)) as [L|L]; [left|right; apply Z.ltb_lt; lia].
  apply andb_true_iff. split; [|apply Z.ltb_lt; lia]. apply Z.leb_le.
  destruct (existsb (fun a0 => queued enq t a0 && (enq a0 <=? cr_issue b)) tr) eqn:EX.
  - apply existsb_exists in EX. destruct EX as [a0 [I0 X]]. apply andb_true_iff in X. destruct X as [X X3]. apply Z.leb_le in X3. unfold queued in X. apply andb_true_iff in X. destruct X as [X1 X2].
    apply Z.leb_le in X1. apply Z.ltb_lt in X2. destruct (fop_cases _ _ a a0 (om_fifo _ _ _ _ _ _ _ _ _ _ OM) A1 I0) as [E|[E|E]]; [subst; exact X3|lia|lia].
  - exfalso. assert (NX : forall a0, In a0 tr -> queued enq t a0 = true -> cr_issue b < enq a0 /\ enq a0 <= t < cr_end a0).
    { intros a0 I0 Q0. apply not_true_iff_false in EX. destruct (Z.ltb_spec (cr_issue b) (enq a0)) as [Y|Y].
      - split; [exact Y|]. unfold queued in Q0. apply andb_true_iff in Q0. destruct Q0 as [Q1 Q2]. apply Z.leb_le in Q1. apply Z.ltb_lt in Q2. lia.
      - exfalso. apply EX. apply existsb_exists. exists a0. split; [exact I0|]. rewrite Q0. apply Z.leb_le. lia. }
    assert (ND : NoDup (map cr_task (filter (queued enq t) tr))).
    { apply fop_apart; [apply (lr_sequential _ _ _ _ _ _ LR)|]. intros x y Hx Hy Px Py AP. destruct (NX x Hx Px), (NX y Hy Py).
      pose proof (om_enq _ _ _ _ _ _ _ _ _ _ OM x Hx). pose proof (om_enq _ _ _ _ _ _ _ _ _ _ OM y Hy). unfold apart in AP. lia. }
    pose proof (om_blocked _ _ _ _ _ _ _ _ _ _ OM b t (map (fun a => (cr_task a, cr_job a)) (filter (queued enq t) tr)) Hb Ht Hp) as BL.
    rewrite map_length in BL. pose proof (om_full _ _ _ _ _ _ _ _ _ _ OM b t Hb ltac:(lia)) as FU.
    assert (N.of_nat (length (filter (queued enq t) tr)) < m)%N; [|lia]. apply BL; clear BL.
    + apply (NoDup_map_inv fst). rewrite map_map. exact ND.
    + intros i j Hij. apply in_map_iff in Hij. destruct Hij as [a0 [E0 H0]]. injection E0 as <- <-. apply filter_In in H0. destruct H0 as [I0 Q0]. destruct (NX a0 I0 Q0) as [N1 N2].
      pose proof (om_enq _ _ _ _ _ _ _ _ _ _ OM a0 I0). pose proof (lr_job _ _ _ _ _ _ LR a0 I0). split; [lia|].
      destruct (fop_cases _ _ a0 b (fop_conj _ _ _ (om_fifo _ _ _ _ _ _ _ _ _ _ OM) (om_overtake _ _ _ _ _ _ _ _ _ _ OM)) I0 Hb) as [E|[[E1 E2]|[E1 E2]]]; [subst; lia|apply E2; exact N1|lia].
Qed.

Definition init_blocks (b a : creq) : bool := (cr_start a <? cr_start b) && ((enq a <=? cr_issue b) && (cr_issue b <? cr_end a)).
Definition queue_blocks (b a : creq) : bool := (cr_start a <? cr_start b) && (enq b <? cr_end a).

Lemma omlp_split a b : omlp_blocks enq a b = true -> init_blocks b a = true \/ queue_blocks b a = true.
Proof. unfold omlp_blocks, init_blocks, queue_blocks. destruct (cr_start a <? cr_start b); cbn; [|discriminate]. intros X. apply orb_true_iff in X. exact X. Qed.

Lemma init_spec a b : init_blocks b a = true -> cr_start a < cr_start b /\ enq a <= cr_issue b < cr_end a.
Proof. unfold init_blocks. rewrite !andb_true_iff, !Z.ltb_lt, Z.leb_le. lia. Qed.

Lemma queue_spec a b : queue_blocks b a = true -> cr_start a < cr_start b /\ enq b < cr_end a.
Proof. unfold queue_blocks. rewrite !andb_true_iff, !Z.ltb_lt. lia. Qed.

Lemma queue_count b : In b tr -> (N.of_nat (length (filter (queue_blocks b) tr)) <= m - 1)%N.
Proof.
  intros Hb. destruct (filter (queue_blocks b) tr) as [|a l] eqn:E; [cbn; lia|]. rewrite <- E.
  assert (Ha : In a (filter (queue_blocks b) tr)) by (rewrite E; left; reflexivity). apply filter_In in Ha. destruct Ha as [Ia Qa]. apply queue_spec in Qa. destruct Qa as [Q1 Q2].
  destruct (omlp_order a b Ia Hb Q1) as [O1 [O2 _]]. pose proof (lr_times _ _ _ _ _ _ LR b Hb) as Tb. pose proof (om_capacity _ _ _ _ _ _ _ _ _ _ OM (enq b)) as C.
  assert (L : (length (filter (queue_blocks b) tr) < length (filter (queued enq (enq b)) tr))%nat); [|lia].
  apply (filter_strict _ _ tr b).
  - intros x Hx X. apply queue_spec in X. destruct (omlp_order x b Hx Hb ltac:(lia)) as [P1 _]. unfold queued. apply andb_true_iff. split; [apply Z.leb_le; lia|apply Z.ltb_lt; lia].
  - exact Hb.
  - unfold queued. apply andb_true_iff. split; [apply Z.leb_le; lia|apply Z.ltb_lt; lia].
  - unfold queue_blocks. rewrite Z.ltb_irrefl. reflexivity.
Qed.

Lemma init_count b : In b tr -> (N.of_nat (length (filter (init_blocks b) tr)) <= m)%N.
Proof.
  intros Hb. pose proof (om_capacity _ _ _ _ _ _ _ _ _ _ OM (cr_issue b)) as C.
  assert (L : (length (filter (init_blocks b) tr) <= length (filter (queued enq (cr_issue b)) tr))%nat); [|lia].
  apply filter_sub. intros x Hx X. apply init_spec in X. unfold queued. apply andb_true_iff. split; [apply Z.leb_le; lia|apply Z.ltb_lt; lia].
Qed.

Lemma init_tasks b : NoDup (map cr_task (filter (init_blocks b) tr)).
Proof.
  apply fop_apart; [apply (lr_sequential _ _ _ _ _ _ LR)|]. intros x y Hx Hy Px Py AP. apply init_spec in Px, Py.
  pose proof (om_enq _ _ _ _ _ _ _ _ _ _ OM x Hx). pose proof (om_enq _ _ _ _ _ _ _ _ _ _ OM y Hy). unfold apart in AP. lia.
Qed.

Lemma queue_tasks b : In b tr -> NoDup (map cr_task (filter (queue_blocks b) tr)).
Proof.
  intros Hb. apply fop_apart; [apply (lr_sequential _ _ _ _ _ _ LR)|]. intros x y Hx Hy Px Py AP. apply queue_spec in Px, Py.
  destruct (omlp_order x b Hx Hb ltac:(lia)) as [O1 _]. destruct (omlp_order y b Hy Hb ltac:(lia)) as [O2 _].
  pose proof (om_enq _ _ _ _ _ _ _ _ _ _ OM x Hx). pose proof (om_enq _ _ _ _ _ _ _ _ _ _ OM y Hy). unfold apart in AP. lia.
Qed.

Lemma omlp_count_many b : In b tr -> (N.of_nat (length (filter (fun a => omlp_blocks enq a b) tr)) <= 2 * m - 1)%N.
Proof.
  intros Hb. pose proof (init_count b Hb) as I. pose proof (queue_count b Hb) as Q. pose proof (om_enq _ _ _ _ _ _ _ _ _ _ OM b Hb) as E.
  pose proof (filter_or (fun a => omlp_blocks enq a b) (init_blocks b) (queue_blocks b) tr (fun a _ X => omlp_split a b X)) as F.
  destruct (N.eq_dec m 0) as [Z|Z]; lia.
Qed.

Lemma omlp_source_many b i : In b tr -> (N.of_nat (length (filter (fun a => omlp_blocks enq a b && Nat.eqb (cr_task a) i) tr)) <= 2)%N.
Proof.
  intros Hb. pose proof (nodup_count_1 _ i (init_tasks b)) as I. pose proof (nodup_count_1 _ i (queue_tasks b Hb)) as Q. rewrite filter_filter in I, Q.
  assert (F := filter_or (fun a => omlp_blocks enq a b && Nat.eqb (cr_task a) i) (fun a => init_blocks b a && Nat.eqb (cr_task a) i) (fun a => queue_blocks b a && Nat.eqb (cr_task a) i) tr).
  assert (F' := F ltac:(intros a _ X; apply andb_true_iff in X; destruct X as [X1 X2]; rewrite X2, !andb_true_r; apply omlp_split; exact X1)). lia.
Qed.

(** few sources: every other task blocks at most once *)
Lemma omlp_tasks_few b : In b tr -> cr_task b = ti_id tsk -> (N.of_nat (length (pcontention info (fun _ => true) res)) <= m + 1)%N ->
  NoDup (map cr_task (filter (fun a => omlp_blocks enq a b) tr)).
Proof.
  intros Hb Tb HS. apply fop_apart_task; [apply (lr_sequential _ _ _ _ _ _ LR)|].
  assert (G : forall x y, In x tr -> In y tr -> omlp_blocks enq x b = true -> omlp_blocks enq y b = true -> cr_task x = cr_task y -> cr_end x <= cr_issue y -> False).
  { intros x y Hx Hy Px Py ET EI. destruct (omlp_blocks_facts x b Hx Hb Px) as [X1 [X2 [X3 [X4 X5]]]]. destruct (omlp_blocks_facts y b Hy Hb Py) as [Y1 [Y2 [Y3 [Y4 Y5]]]].
    pose proof (om_enq _ _ _ _ _ _ _ _ _ _ OM y Hy) as Ey. pose proof (om_enq _ _ _ _ _ _ _ _ _ _ OM b Hb) as Eb. pose proof (lr_times _ _ _ _ _ _ LR b Hb) as Tmb. pose proof (lr_times _ _ _ _ _ _ LR y Hy) as Tmy.
    destruct (omlp_order y b Hy Hb Y1) as [_ [_ OV]]. destruct (OV ltac:(lia)) as [OV1 _].
    set (t := cr_issue y). pose proof (om_full _ _ _ _ _ _ _ _ _ _ OM b t Hb ltac:(unfold t; lia)) as FU.
    assert (QS : forall a, In a tr -> queued enq t a = true -> enq a <= t < cr_end a).
    { intros a Ha Qa. unfold queued in Qa. apply andb_true_iff in Qa. destruct Qa as [Q1 Q2]. apply Z.leb_le in Q1. apply Z.ltb_lt in Q2. lia. }
    assert (ND : NoDup (map cr_task (filter (queued enq t) tr))).
    { apply fop_apart; [apply (lr_sequential _ _ _ _ _ _ LR)|]. intros u v Hu Hv Pu Pv AP. apply QS in Pu, Pv; auto.
      pose proof (om_enq _ _ _ _ _ _ _ _ _ _ OM u Hu). pose proof (om_enq _ _ _ _ _ _ _ _ _ _ OM v Hv). unfold apart in AP. lia. }
    assert (SRC : forall a, In a tr -> exists t x, nth_error info (cr_task a) = Some t /\ In x (ti_requests t) /\ q_res x = res).
    { intros a Ha. destruct (lr_spec _ _ _ _ _ _ LR a Ha) as [u [z [N1 [N2 [N3 _]]]]]. exists u, z. auto. }
    assert (NM : forall a, In a tr -> queued enq t a = true -> cr_task a <> ti_id tsk).
    { intros a Ha Qa. apply QS in Qa; [|exact Ha]. intros E. pose proof (om_enq _ _ _ _ _ _ _ _ _ _ OM a Ha). pose proof (lr_times _ _ _ _ _ _ LR a Ha).
      destruct (fop_cases _ _ a b (lr_sequential _ _ _ _ _ _ LR) Ha Hb) as [E'|[E'|E']]; [subst a; unfold t in *; lia| |]; unfold apart in E'; specialize (E' ltac:(congruence)); unfold t in *; lia. }
    destruct (in_dec Nat.eq_dec (cr_task y) (map cr_task (filter (queued enq t) tr))) as [IN|NI].
    - apply in_map_iff in IN. destruct IN as [a [Ea Ha]]. apply filter_In in Ha. destruct Ha as [Ha Qa]. apply QS in Qa; [|exact Ha].
      pose proof (om_enq _ _ _ _ _ _ _ _ _ _ OM a Ha).
      destruct (fop_cases _ _ a y (lr_sequential _ _ _ _ _ _ LR) Ha Hy) as [E'|[E'|E']]; [subst a; unfold t in *; lia| |]; unfold apart in E'; specialize (E' ltac:(congruence)); unfold t in *; lia.
    - pose proof (sources_length info res tsk q (cr_task y :: map cr_task (filter (queued enq t) tr)) W Htsk Hq Eq (NoDup_cons _ NI ND)) as SL.
      assert (SL' : (length (cr_task y :: map cr_task (filter (queued enq t) tr)) + 1 <= length (pcontention info (fun _ => true) res))%nat).
      { apply SL. intros i [<-|Hi].
        - split; [apply (omlp_not_mine y b Hy Hb Tb Y1 Y2)|apply SRC; exact Hy].
        - apply in_map_iff in Hi. destruct Hi as [a [<- Ha]]. apply filter_In in Ha. split; [apply NM; apply Ha|apply SRC; apply Ha]. }
      cbn [length] in SL'. rewrite map_length in SL'. lia. }
  intros x y Hx Hy Px Py ET [AP|AP]; [apply (G x y); assumption|apply (G y x); auto].
Qed.

Lemma omlp_resource_safe : let src := N.of_nat (length (pcontention info (fun _ => true) res)) in
  let '(total, per) := if (src <=? m + 1)%N then ((src - 1) * q_num q, q_num q)%N else ((2 * m - 1) * q_num q, 2 * q_num q)%N in
  blocked_time (ti_id tsk) k pib tr <= Z.of_N (i_len (bound_blocking (pcontention info (fun _ => true) res) (ti_response tsk) total per (ti_id tsk) 0)).
Proof.
  intros src.
  assert (Hn : (N.of_nat (length (of_job tr tsk k)) <= q_num q)%N) by (apply (lr_number _ _ _ _ _ _ LR (ti_id tsk) k tsk q (wf_id info tsk W Htsk) Hq Eq)).
  assert (HB : forall a b, In a tr -> In b (of_job tr tsk k) -> omlp_blocks enq a b = true -> cr_task a <> ti_id tsk /\ cr_start a < cr_start b /\ cr_issue b < cr_end a).
  { intros a b Ha Hb X. apply of_job_in in Hb. destruct Hb as [Ib [Tb _]]. destruct (omlp_blocks_facts a b Ha Ib X) as [F1 [F2 _]]. split; [|auto]. apply (omlp_not_mine a b Ha Ib Tb F1 F2). }
  assert (HP : forall b t, In b (of_job tr tsk k) -> cr_issue b <= t < cr_start b -> pib b t = true -> exists a, In a tr /\ omlp_blocks enq a b = true /\ cr_start a <= t < cr_end a /\ exec a t = true).
  { intros b t Hb. apply of_job_in in Hb. apply omlp_progress_blocks. apply Hb. }
  rewrite blocked_time_eq.
  assert (GL := fun max per => blocked_global info rel comp res exec tr W SJ LR tsk k Htsk (q_num q) (of_job tr tsk k) (fun b => proj1 (of_job_in tr tsk k b)) (of_job_apart tr tsk k (lr_sequential _ _ _ _ _ _ LR)) Hn (omlp_blocks enq) HB pib max per HP).
  destruct (N.leb_spec src (m + 1)) as [L|L].
  - specialize (GL (src - 1) 1)%N. rewrite N.mul_1_r in GL. rewrite (N.mul_comm (src - 1)). apply GL; clear GL.
    + intros b Hb. pose proof Hb as Hb'. apply of_job_in in Hb'. destruct Hb' as [Ib [Tb _]]. pose proof (omlp_tasks_few b Ib Tb L) as ND.
      pose proof (sources_length info res tsk q _ W Htsk Hq Eq ND) as SL. rewrite map_length in SL.
      assert (SL' : (length (filter (fun a => omlp_blocks enq a b) tr) + 1 <= length (pcontention info (fun _ => true) res))%nat); [|unfold src; lia].
      apply SL. intros i Hi. apply in_map_iff in Hi. destruct Hi as [a [<- Ha]]. apply filter_In in Ha. destruct Ha as [Ha X]. split.
      * apply (HB a b Ha Hb X).
      * destruct (lr_spec _ _ _ _ _ _ LR a Ha) as [u [z [N1 [N2 [N3 _]]]]]. exists u, z. auto.
    + intros b i Hb. apply of_job_in in Hb. destruct Hb as [Ib [Tb _]]. rewrite <- filter_filter. pose proof (nodup_count_1 _ i (omlp_tasks_few b Ib Tb L)). lia.
  - specialize (GL (2 * m - 1) 2)%N. rewrite (N.mul_comm (2 * m - 1)), (N.mul_comm 2 (q_num q)). apply GL; clear GL.
    + intros b Hb. apply of_job_in in Hb. apply omlp_count_many. apply Hb.
    + intros b i Hb. apply of_job_in in Hb. apply omlp_source_many. apply Hb.
Qed.
End OMLP.

Lemma global_omlp_safe info m rel comp prio enq exec pib tr tsk k : wf_info info ->
  (forall t, In t info -> sporadic_jobs (ti_period t) (ti_response t) (rel (ti_id t)) (comp (ti_id t))) ->
  (forall res, omlp_execution info m rel comp prio res (enq res) (exec res) (pib res) (tr res)) -> In tsk info ->
  total_blocked (ti_id tsk) k pib tr (map q_res (ti_requests tsk)) <= Z.of_N (i_len (nth (ti_id tsk) (global_omlp_bounds info m) inter0)).
Proof.
  intros W SJ H Ht. unfold global_omlp_bounds.
  set (F := fun tsk => fold_left _ (ti_requests tsk) inter0). rewrite (nth_indep _ inter0 (F tsk)) by (rewrite map_length; apply nth_error_Some; rewrite (wf_id info tsk W Ht); discriminate).
  rewrite map_nth. rewrite (nth_error_nth info (ti_id tsk) tsk (wf_id info tsk W Ht)). unfold F.
  set (g := fun req => let cs := nth (q_res req) (sort_resources (split_by_resource info)) [] in
    let num_sources := N.of_nat (length cs) in let issued := q_num req in
    let '(total_limit, per_src_limit) := if (num_sources <=? m + 1)%N then ((num_sources - 1) * issued, issued)%N else ((2 * m - 1) * issued, 2 * issued)%N in
    bound_blocking cs (ti_response tsk) total_limit per_src_limit (ti_id tsk) 0).
  rewrite (fold_left_ext _ (fun b req => iadd b (g req))).
  2:{ intros a b _. unfold g. cbv zeta. destruct (_ <=? _)%N; reflexivity. }
  rewrite fold_iadd, iadd_0_l; cbn [i_len].
  apply (total_blocked_sum (ti_id tsk) k pib tr (fun req => i_len (g req))).
  intros q Hq. pose proof (omlp_resource_safe info m rel comp prio (q_res q) (enq (q_res q)) (exec (q_res q)) (pib (q_res q)) (tr (q_res q)) W SJ (H (q_res q)) tsk q k Ht Hq eq_refl) as S.
  cbv zeta in S. unfold g. rewrite pcontention_all. cbv zeta. destruct (_ <=? _)%N; exact S.
Qed.
