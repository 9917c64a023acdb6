(** Edge colouring of bipartite multigraphs: requests to pair tasks with
    processors can be served in [K] rounds, if no task and no processor occurs
    more than [K] times. *)
From Coq Require Import ZArith List Bool Lia Arith.
From Verif Require Import Base ProofMatch.
Import ListNotations.
Open Scope Z_scope.

Definition is_task (i : nat) (o : option nat) : bool := match o with Some j => Nat.eqb i j | None => false end.

Lemma is_task_iff i o : is_task i o = true <-> o = Some i.
Proof. destruct o as [j|]; cbn; [|split; discriminate]. rewrite Nat.eqb_eq. split; congruence. Qed.

Section Color.
Variables (K n m : nat).

(** round, processor -> task *)
Notation plan := (nat -> nat -> option nat).

Record proper (P : plan) : Prop := {
  pr_once : forall k c c' i, P k c = Some i -> P k c' = Some i -> c = c';
  pr_range : forall k c i, P k c = Some i -> (i < n)%nat /\ (c < m)%nat }.

Definition granted (P : plan) (i c : nat) : Z := sumf (fun k => b2z (is_task i (P k c))) K.

Lemma ex_lt_dec (p : nat -> bool) N : (exists k, (k < N)%nat /\ p k = true) \/ forall k, (k < N)%nat -> p k = false.
Proof.
  induction N as [|N IH]; [right; intros; lia|]. destruct IH as [[k [H1 H2]]|H]; [left; exists k; split; [lia|exact H2]|].
  destruct (p N) eqn:E; [left; exists N; split; [lia|exact E]|right]. intros k Hk. destruct (Nat.eq_dec k N) as [->|]; [exact E|apply H; lia].
Qed.

Lemma free_for_task P i : proper P -> sumf (granted P i) m < Z.of_nat K -> exists k, (k < K)%nat /\ forall c, P k c <> Some i.
Proof.
  intros PP H. destruct (ex_lt_dec (fun k => negb (existsb (fun c => is_task i (P k c)) (seq 0 m))) K) as [[k [H1 H2]]|N].
  - exists k. split; [exact H1|]. intros c Hc. apply negb_true_iff in H2. assert (X : existsb (fun c => is_task i (P k c)) (seq 0 m) = true); [|congruence].
    apply existsb_exists. exists c. split; [apply in_seq; destruct (pr_range P PP k c i Hc); lia|apply is_task_iff; exact Hc].
  - exfalso. unfold granted in H. rewrite sumf_swap in H. assert (X : sumf (fun _ => 1) K <= sumf (fun j => sumf (fun i0 => b2z (is_task i (P j i0))) m) K).
    { apply sumf_le. intros k Hk. specialize (N k Hk). cbv beta in N. apply negb_false_iff in N. apply existsb_exists in N. destruct N as [c [Hc E]]. apply in_seq in Hc.
      pose proof (sumf_term_le (fun i0 => b2z (is_task i (P k i0))) m c ltac:(lia)) as T. cbv beta in T. rewrite E in T. cbn in T. apply T. intros; apply b2z_range. }
    rewrite sumf_const in X. lia.
Qed.

Lemma free_for_cpu P c : proper P -> sumf (fun i => granted P i c) n < Z.of_nat K -> exists k, (k < K)%nat /\ P k c = None.
Proof.
  intros PP H. destruct (ex_lt_dec (fun k => match P k c with None => true | _ => false end) K) as [[k [H1 H2]]|N].
  - exists k. split; [exact H1|]. destruct (P k c); [discriminate|reflexivity].
  - exfalso. unfold granted in H. rewrite sumf_swap in H. assert (X : sumf (fun _ => 1) K <= sumf (fun k => sumf (fun i => b2z (is_task i (P k c))) n) K).
    { apply sumf_le. intros k Hk. specialize (N k Hk). cbv beta in N. destruct (P k c) as [i|] eqn:E; [|discriminate].
      destruct (pr_range P PP k c i E) as [Hi _].
      pose proof (sumf_term_le (fun i0 => b2z (is_task i0 (Some i))) n i Hi) as T. cbv beta in T. cbn [is_task] in T. rewrite Nat.eqb_refl in T. cbn in T. apply T. intros; apply b2z_range. }
    rewrite sumf_const in X. lia.
Qed.

(** ** Exchanging two rounds along a chain *)
Section Chain.
Variables (P : plan) (a b c0 : nat).
Variable PP : proper P.
Variable free : P b c0 = None.

(** the processor that runs in round b what c runs in round a *)
Definition next (c : nat) : option nat :=
  match P a c with None => None | Some j => find (fun c' => is_task j (P b c')) (seq 0 m) end.

Lemma next_iff c c' : next c = Some c' <-> exists j, P a c = Some j /\ P b c' = Some j.
Proof.
  unfold next. split.
  - destruct (P a c) as [j|]; [|discriminate]. intros H. apply find_some in H. destruct H as [_ H]. apply is_task_iff in H. eauto.
  - intros [j [E1 E2]]. rewrite E1. destruct (find _ _) as [d|] eqn:F.
    + apply find_some in F. destruct F as [_ F]. apply is_task_iff in F. f_equal. eapply pr_once; eassumption.
    + exfalso. assert (I : In c' (seq 0 m)) by (apply in_seq; destruct (pr_range P PP b c' j E2); lia). apply (find_none _ _ F) in I. cbv beta in I. rewrite E2 in I. cbn in I. rewrite Nat.eqb_refl in I. discriminate.
Qed.

Fixpoint chain (k : nat) : option nat := match k with O => Some c0 | S k => match chain k with Some c => next c | None => None end end.

Lemma chain_inj k l c : chain k = Some c -> chain l = Some c -> k = l.
Proof.
  revert l c; induction k as [|k IH]; intros [|l] c H1 H2; cbn in H1, H2; [reflexivity| | |].
  - exfalso. injection H1 as <-. destruct (chain l) as [d|]; [|discriminate]. apply next_iff in H2. destruct H2 as [j [_ X]]. congruence.
  - exfalso. injection H2 as <-. destruct (chain k) as [d|]; [|discriminate]. apply next_iff in H1. destruct H1 as [j [_ X]]. congruence.
  - destruct (chain k) as [d|] eqn:E1; [|discriminate]. destruct (chain l) as [d'|] eqn:E2; [|discriminate]. f_equal.
    apply next_iff in H1, H2. destruct H1 as [j [A1 A2]], H2 as [j' [B1 B2]]. assert (j = j') by congruence. subst j'.
    assert (d = d') by (eapply pr_once; eassumption). subst d'. exact (IH l d eq_refl E2).
Qed.

Lemma chain_prefix k c l : chain k = Some c -> (l <= k)%nat -> exists d, chain l = Some d.
Proof.
  revert c; induction k as [|k IH]; intros c H L; [assert (l = O) by lia; subst; eauto|]. destruct (Nat.eq_dec l (S k)) as [->|]; [eauto|].
  cbn in H. destruct (chain k) as [d|]; [|discriminate]. apply (IH d eq_refl). lia.
Qed.

Lemma chain_range k c : (c0 < m)%nat -> chain k = Some c -> (c < m)%nat.
Proof.
  intros H0. destruct k as [|k]; cbn; [congruence|]. destruct (chain k) as [d|]; [|discriminate]. intros H. apply next_iff in H. destruct H as [j [_ E]]. apply (pr_range P PP b c j E).
Qed.

Lemma chain_ends : (c0 < m)%nat -> chain m = None.
Proof.
  intros H0. destruct (chain m) as [c|] eqn:E; [|reflexivity]. exfalso.
  set (L := map (fun k => match chain k with Some d => d | None => O end) (seq 0 (S m))).
  assert (X : forall k, (k <= m)%nat -> exists d, chain k = Some d) by (intros k Hk; eapply chain_prefix; eassumption).
  assert (ND : NoDup L).
  { apply NoDup_nth with (d := O). intros i j Hi Hj EQ. unfold L in *. rewrite map_length, seq_length in *.
    rewrite (nth_indep _ O (match chain O with Some d => d | None => O end)) in EQ by (rewrite map_length, seq_length; lia).
    rewrite (nth_indep (map _ _) O (match chain O with Some d => d | None => O end)) in EQ by (rewrite map_length, seq_length; lia).
    rewrite !(map_nth (fun k => match chain k with Some d => d | None => O end)) in EQ. rewrite !seq_nth in EQ by lia. cbn [plus] in EQ.
    destruct (X i ltac:(lia)) as [d1 E1], (X j ltac:(lia)) as [d2 E2]. rewrite E1, E2 in EQ. subst d2. eapply chain_inj; eassumption. }
  assert (IN : incl L (seq 0 m)).
  { intros x Hx. apply in_map_iff in Hx. destruct Hx as [k [<- Hk]]. apply in_seq in Hk. destruct (X k ltac:(lia)) as [d Ed]. rewrite Ed. apply in_seq. pose proof (chain_range k d H0 Ed). lia. }
  pose proof (NoDup_incl_length ND IN) as LL. unfold L in LL. rewrite map_length, !seq_length in LL. lia.
Qed.

Definition on_chain (c : nat) : bool := existsb (fun k => is_task c (chain k)) (seq 0 m).

Lemma on_chain_iff c : (c0 < m)%nat -> on_chain c = true <-> exists k, chain k = Some c.
Proof.
  intros H0. unfold on_chain. rewrite existsb_exists. split.
  - intros [k [_ H]]. apply is_task_iff in H. eauto.
  - intros [k H]. exists k. split; [|apply is_task_iff; exact H]. apply in_seq. destruct (le_lt_dec m k) as [G|G]; [|lia].
    exfalso. destruct (chain_prefix k c m H G) as [d Ed]. rewrite (chain_ends H0) in Ed. discriminate.
Qed.

Definition exchange (k : nat) : nat := if Nat.eqb k a then b else if Nat.eqb k b then a else k.
Definition swapped : plan := fun k c => if on_chain c then P (exchange k) c else P k c.

Lemma exchange_inv k : exchange (exchange k) = k.
Proof. unfold exchange. destruct (Nat.eqb_spec k a) as [->|N]; [destruct (Nat.eqb_spec b a) as [->|]; [reflexivity|]; rewrite Nat.eqb_refl; reflexivity|].
  destruct (Nat.eqb_spec k b) as [->|N2]; [rewrite Nat.eqb_refl; reflexivity|]. destruct (Nat.eqb_spec k a); [congruence|]. destruct (Nat.eqb_spec k b); congruence. Qed.

(** two processors that run the same task in rounds a and b are both on the chain, or neither *)
Lemma chain_closed c c' j : (c0 < m)%nat -> P a c = Some j -> P b c' = Some j -> on_chain c = on_chain c'.
Proof.
  intros H0 E1 E2. apply eq_true_iff_eq. rewrite !on_chain_iff by exact H0. split.
  - intros [k Hk]. exists (S k). cbn. rewrite Hk. apply next_iff. eauto.
  - intros [[|k] Hk]; cbn in Hk; [exfalso; injection Hk as <-; congruence|]. destruct (chain k) as [d|] eqn:E; [|discriminate].
    apply next_iff in Hk. destruct Hk as [j' [A1 A2]]. assert (j' = j) by congruence. subst j'. exists k. rewrite E. f_equal. eapply pr_once; eassumption.
Qed.

Lemma swapped_proper : (c0 < m)%nat -> proper swapped.
Proof.
  intros H0. constructor.
  - intros k c c' i. unfold swapped. destruct (on_chain c) eqn:O1, (on_chain c') eqn:O2; intros E1 E2; [eapply pr_once; eassumption| | |eapply pr_once; eassumption].
    + unfold exchange in E1. destruct (Nat.eqb_spec k a) as [->|Na].
      * exfalso. pose proof (chain_closed c' c i H0 E2 E1). congruence.
      * destruct (Nat.eqb_spec k b) as [->|Nb]; [exfalso; pose proof (chain_closed c c' i H0 E1 E2); congruence|eapply pr_once; eassumption].
    + unfold exchange in E2. destruct (Nat.eqb_spec k a) as [->|Na].
      * exfalso. pose proof (chain_closed c c' i H0 E1 E2). congruence.
      * destruct (Nat.eqb_spec k b) as [->|Nb]; [exfalso; pose proof (chain_closed c' c i H0 E2 E1); congruence|eapply pr_once; eassumption].
  - intros k c i. unfold swapped. destruct (on_chain c); apply pr_range; exact PP.
Qed.

Lemma sumf_exchange f : (a < K)%nat -> (b < K)%nat -> sumf (fun k => f (exchange k)) K = sumf f K.
Proof.
  intros Ha Hb. destruct (Nat.eq_dec a b) as [E|NE].
  - apply sumf_ext. intros k _. f_equal. unfold exchange. destruct (Nat.eqb_spec k a) as [->|]; [congruence|]. destruct (Nat.eqb_spec k b); congruence.
  - set (g := fun k => if Nat.eqb k a then f b else f k).
    assert (E1 : sumf g K = sumf f K + (f b - f a)).
    { apply (sumf_point g f K a); [exact Ha| |]; unfold g; [intros u Hu; destruct (Nat.eqb_spec u a); congruence|rewrite Nat.eqb_refl; lia]. }
    assert (E2 : sumf (fun k => f (exchange k)) K = sumf g K + (f a - f b)).
    { apply (sumf_point _ g K b); [exact Hb| |]; unfold g, exchange.
      - intros u Hu. destruct (Nat.eqb_spec u a); [reflexivity|]. destruct (Nat.eqb_spec u b); congruence.
      - destruct (Nat.eqb_spec b a); [congruence|]. rewrite Nat.eqb_refl. lia. }
    lia.
Qed.

Lemma swapped_granted i c : (a < K)%nat -> (b < K)%nat -> granted swapped i c = granted P i c.
Proof.
  intros Ha Hb. unfold granted, swapped. destruct (on_chain c); [|reflexivity].
  apply (sumf_exchange (fun k => b2z (is_task i (P k c)))); assumption.
Qed.
End Chain.

(** ** One more request *)
Lemma extend P i c : proper P -> (i < n)%nat -> (c < m)%nat -> sumf (granted P i) m < Z.of_nat K -> sumf (fun j => granted P j c) n < Z.of_nat K ->
  exists P', proper P' /\ forall j d, granted P' j d = granted P j d + b2z (Nat.eqb i j && Nat.eqb c d).
Proof.
  intros PP Hi Hc HR HC. destruct (free_for_task P i PP HR) as [a [Ha Fa]]. destruct (free_for_cpu P c PP HC) as [b [Hb Fb]].
  assert (Q : exists Q, proper Q /\ (forall j d, granted Q j d = granted P j d) /\ (forall d, Q a d <> Some i) /\ Q a c = None).
  { exists (swapped P a b c). split; [apply swapped_proper; assumption|]. split; [intros; apply swapped_granted; assumption|].
    assert (OC : on_chain P a b c c = true) by (apply on_chain_iff; [assumption..|exists O; reflexivity]).
    split; [|unfold swapped, exchange; rewrite OC, Nat.eqb_refl; exact Fb].
    intros d. unfold swapped. destruct (on_chain P a b c d) eqn:O; [|apply Fa]. unfold exchange. rewrite Nat.eqb_refl. intros E.
    apply on_chain_iff in O; [|assumption..]. destruct O as [[|k] Hk]; cbn in Hk; [congruence|]. destruct (chain P a b c k) as [e|]; [|discriminate].
    apply next_iff in Hk; [|assumption]. destruct Hk as [j [A1 A2]]. assert (j = i) by congruence. subst j. exact (Fa e A1). }
  destruct Q as [Q [QP [QG [QA QC]]]].
  exists (fun k d => if Nat.eqb k a && Nat.eqb d c then Some i else Q k d). split; [constructor|].
  - intros k d d' j. destruct (Nat.eqb_spec k a) as [->|Na]; cbn [andb]; [|apply pr_once; exact QP].
    destruct (Nat.eqb_spec d c) as [->|N1], (Nat.eqb_spec d' c) as [->|N2]; intros E1 E2; [reflexivity| | |eapply pr_once; eassumption].
    + exfalso. injection E1 as <-. exact (QA d' E2).
    + exfalso. injection E2 as <-. exact (QA d E1).
  - intros k d j. destruct (Nat.eqb_spec k a) as [->|Na]; cbn [andb]; [|apply pr_range; exact QP].
    destruct (Nat.eqb_spec d c) as [->|N1]; [intros E; injection E as <-; auto|apply pr_range; exact QP].
  - intros j d. rewrite <- QG. unfold granted. destruct (Nat.eqb_spec c d) as [<-|N].
    + rewrite andb_true_r. apply (sumf_point _ _ K a); [exact Ha| |].
      * intros u Hu. destruct (Nat.eqb_spec u a); [congruence|]. reflexivity.
      * rewrite !Nat.eqb_refl. cbn [andb is_task]. rewrite QC. cbn [is_task]. rewrite (Nat.eqb_sym i j). cbn. lia.
    + rewrite andb_false_r. cbn. rewrite Z.add_0_r. apply sumf_ext. intros k _. destruct (Nat.eqb_spec d c); [congruence|]. rewrite andb_false_r. reflexivity.
Qed.

Definition occurs (E : list (nat * nat)) (i c : nat) : Z := zsum (map (fun e => b2z (Nat.eqb (fst e) i && Nat.eqb (snd e) c)) E).

Lemma coloring E : (forall i c, In (i, c) E -> (i < n)%nat /\ (c < m)%nat) ->
  (forall i, (i < n)%nat -> sumf (occurs E i) m <= Z.of_nat K) -> (forall c, (c < m)%nat -> sumf (fun i => occurs E i c) n <= Z.of_nat K) ->
  exists P, proper P /\ forall i c, granted P i c = occurs E i c.
Proof.
  induction E as [|[i c] E IH]; intros R HR HC.
  - exists (fun _ _ => None). split; [constructor; discriminate|]. intros i c. unfold granted, occurs. cbn. apply sumf_zero. reflexivity.
  - destruct (R i c (or_introl eq_refl)) as [Hi Hc].
    assert (OC : forall j d, occurs ((i, c) :: E) j d = occurs E j d + b2z (Nat.eqb i j && Nat.eqb c d)) by (intros; unfold occurs; cbn [map zsum fst snd]; lia).
    assert (LE : forall j d, occurs E j d <= occurs ((i, c) :: E) j d) by (intros j d; rewrite OC; pose proof (b2z_range (Nat.eqb i j && Nat.eqb c d)); lia).
    destruct IH as [P [PP G]].
    + intros j d H. apply R. right. exact H.
    + intros j Hj. etransitivity; [|apply (HR j Hj)]. apply sumf_le. intros; apply LE.
    + intros d Hd. etransitivity; [|apply (HC d Hd)]. apply sumf_le. intros; apply LE.
    + destruct (extend P i c PP Hi Hc) as [P' [PP' G']].
      * rewrite (sumf_ext (granted P i) (occurs E i)) by (intros; apply G). specialize (HR i Hi).
        rewrite (sumf_point (occurs ((i, c) :: E) i) (occurs E i) m c 1 Hc) in HR; [lia| |].
        -- intros u Hu. rewrite OC. destruct (Nat.eqb_spec c u); [congruence|]. rewrite andb_false_r. cbn. lia.
        -- rewrite OC, !Nat.eqb_refl. cbn. lia.
      * rewrite (sumf_ext (fun j => granted P j c) (fun j => occurs E j c)) by (intros; apply G). specialize (HC c Hc).
        rewrite (sumf_point (fun j => occurs ((i, c) :: E) j c) (fun j => occurs E j c) n i 1 Hi) in HC; [lia| |].
        -- intros u Hu. rewrite OC. destruct (Nat.eqb_spec i u); [congruence|]. cbn. lia.
        -- rewrite OC, !Nat.eqb_refl. cbn. lia.
      * exists P'. split; [exact PP'|]. intros j d. rewrite G', G, OC. reflexivity.
Qed.

(** the same for a matrix of multiplicities *)
Definition edges_of (x : nat -> nat -> Z) : list (nat * nat) :=
  flat_map (fun i => flat_map (fun c => repeat (i, c) (Z.to_nat (x i c))) (seq 0 m)) (seq 0 n).

Lemma occurs_app A B i c : occurs (A ++ B) i c = occurs A i c + occurs B i c.
Proof. unfold occurs. rewrite map_app, zsum_app. reflexivity. Qed.

Lemma occurs_repeat i c k j d : occurs (repeat (i, c) k) j d = b2z (Nat.eqb i j && Nat.eqb c d) * Z.of_nat k.
Proof. induction k as [|k IH]; [cbn; lia|]. cbn [repeat]. unfold occurs in *. cbn [map zsum fst snd]. rewrite IH. lia. Qed.

Lemma occurs_flat_map (f : nat -> list (nat * nat)) N j d : occurs (flat_map f (seq 0 N)) j d = sumf (fun i => occurs (f i) j d) N.
Proof.
  induction N as [|N IH]; [reflexivity|]. rewrite seq_S, flat_map_app, occurs_app, IH. cbn. rewrite app_nil_r. reflexivity.
Qed.

Lemma occurs_edges x i c : (i < n)%nat -> (c < m)%nat -> 0 <= x i c -> occurs (edges_of x) i c = x i c.
Proof.
  intros Hi Hc Hx. unfold edges_of. rewrite occurs_flat_map.
  rewrite (sumf_point _ (fun _ => 0) n i (x i c) Hi).
  - rewrite (sumf_zero (fun _ => 0)) by reflexivity. lia.
  - intros u Hu. rewrite occurs_flat_map. apply sumf_zero. intros k _. rewrite occurs_repeat. destruct (Nat.eqb_spec u i); [congruence|]. reflexivity.
  - rewrite occurs_flat_map. rewrite (sumf_point _ (fun _ => 0) m c (x i c) Hc).
    + rewrite (sumf_zero (fun _ => 0)) by reflexivity. lia.
    + intros u Hu. rewrite occurs_repeat. destruct (Nat.eqb_spec u c); [congruence|]. rewrite andb_false_r. reflexivity.
    + rewrite occurs_repeat, !Nat.eqb_refl. cbn [andb b2z]. lia.
Qed.

Lemma edges_range x i c : In (i, c) (edges_of x) -> (i < n)%nat /\ (c < m)%nat.
Proof.
  intros H. unfold edges_of in H. apply in_flat_map in H. destruct H as [j [Hj H]]. apply in_flat_map in H. destruct H as [d [Hd H]]. apply repeat_spec in H. injection H as -> ->.
  apply in_seq in Hj, Hd. lia.
Qed.

Lemma matrix_coloring x : (forall i c, 0 <= x i c) -> (forall i, (i < n)%nat -> sumf (x i) m <= Z.of_nat K) -> (forall c, (c < m)%nat -> sumf (fun i => x i c) n <= Z.of_nat K) ->
  exists P, proper P /\ forall i c, (i < n)%nat -> (c < m)%nat -> granted P i c = x i c.
Proof.
  intros HX HR HC. destruct (coloring (edges_of x)) as [P [PP G]].
  - intros i c. apply edges_range.
  - intros i Hi. rewrite (sumf_ext _ (x i)) by (intros; apply occurs_edges; auto). apply HR; exact Hi.
  - intros c Hc. rewrite (sumf_ext _ (fun i => x i c)) by (intros; apply occurs_edges; auto). apply HC; exact Hc.
  - exists P. split; [exact PP|]. intros i c Hi Hc. rewrite G. apply occurs_edges; auto.
Qed.
End Color.
