(** Phase-fair reader-writer locks: the bound on the spinning of a job. *)
From Coq Require Import NArith ZArith List Bool Sorted Permutation Lia Arith.
From Verif Require Import ModelLocking ModelResources ModelRW SpecLocking SpecQueue SpecRW ProofLocking ProofSpin ProofQueue ProofRW.
Import ListNotations.
Open Scope Z_scope.

(** * Lists *)
Lemma max_below (t lo : Z) l : lo <= t -> exists x, In x (lo :: l) /\ x <= t /\ lo <= x /\ forall y, In y l -> y <= t -> y <= x.
Proof.
  intros H. induction l as [|y l [x [X1 [X2 [X3 X4]]]]].
  - exists lo. split; [left; reflexivity|]. split; [exact H|]. split; [lia|]. intros y [].
  - destruct (Z.leb_spec y t) as [L|L].
    + destruct (Z.leb_spec y x) as [M|M].
      * exists x. split; [destruct X1; [left|right; right]; assumption|]. split; [exact X2|]. split; [exact X3|]. intros z [<-|Hz] Hz2; [exact M|auto].
      * exists y. split; [right; left; reflexivity|]. split; [exact L|]. split; [lia|]. intros z [<-|Hz] Hz2; [lia|specialize (X4 z Hz Hz2); lia].
    + exists x. split; [destruct X1; [left|right; right]; assumption|]. split; [exact X2|]. split; [exact X3|]. intros z [<-|Hz] Hz2; [lia|auto].
Qed.

(** the preference among readers that hold the lock at the same time *)
Definition later (a b : rwreq) : bool := (cr_end (fst a) <? cr_end (fst b)) || ((cr_end (fst a) =? cr_end (fst b)) && (Nat.leb (rtask a) (rtask b))).

Lemma later_refl a : later a a = true.
Proof. unfold later. rewrite Z.eqb_refl, Nat.leb_refl. apply orb_true_r. Qed.
Lemma later_spec a b : later a b = true <-> cr_end (fst a) < cr_end (fst b) \/ (cr_end (fst a) = cr_end (fst b) /\ (rtask a <= rtask b)%nat).
Proof. unfold later. rewrite orb_true_iff, andb_true_iff, Z.ltb_lt, Z.eqb_eq, Nat.leb_le. tauto. Qed.

Lemma latest (l : list rwreq) : l <> [] -> exists a, In a l /\ forall b, In b l -> later b a = true.
Proof.
  induction l as [|a l IH]; intros H; [congruence|]. destruct l as [|b l].
  - exists a. split; [left; reflexivity|]. intros b [<-|[]]. apply later_refl.
  - destruct (IH ltac:(discriminate)) as [c [C1 C2]]. destruct (later a c) eqn:E.
    + exists c. split; [right; exact C1|]. intros x [<-|Hx]; [exact E|apply C2; exact Hx].
    + exists a. split; [left; reflexivity|]. intros x [<-|Hx]; [apply later_refl|]. specialize (C2 x Hx). apply later_spec in C2. apply later_spec.
      assert (N : ~ (cr_end (fst a) < cr_end (fst c) \/ (cr_end (fst a) = cr_end (fst c) /\ (rtask a <= rtask c)%nat))) by (rewrite <- later_spec; congruence). lia.
Qed.

Lemma filter_exists_count {A B} (f : B -> A -> bool) (xs : list B) (l : list A) : (forall x, In x xs -> (length (filter (f x) l) <= 1)%nat) ->
  (length (filter (fun a => existsb (fun x => f x a) xs) l) <= length (filter (fun x => existsb (f x) l) xs))%nat.
Proof.
  induction xs as [|x xs IH]; intros H.
  - cbn [existsb filter]. induction l as [|a l IHl]; [cbn; lia|]. cbn. apply IHl. intros y [].
  - specialize (IH (fun y Hy => H y (or_intror Hy))). specialize (H x (or_introl eq_refl)).
    assert (L : (length (filter (fun a => existsb (fun x => f x a) (x :: xs)) l) <= length (filter (f x) l) + length (filter (fun a => existsb (fun x => f x a) xs) l))%nat).
    { clear. induction l as [|a l IH]; [cbn; lia|]. cbn [filter existsb] in *. destruct (f x a), (existsb (fun x => f x a) xs); cbn [orb length] in *; lia. }
    cbn [filter]. destruct (existsb (f x) l) eqn:E; cbn [length]; [lia|].
    assert (Z : length (filter (f x) l) = 0%nat); [|lia].
    clear - E. induction l as [|a l IH]; [reflexivity|]. cbn in *. apply orb_false_iff in E. destruct E as [E1 E2]. rewrite E1. auto.
Qed.

Lemma nsum_le {A} (f g : A -> nat) l : (forall a, In a l -> (f a <= g a)%nat) -> (nsum (map f l) <= nsum (map g l))%nat.
Proof. induction l as [|a l IH]; intros H; [cbn; lia|]. cbn [map nsum fold_right]. pose proof (H a (or_introl eq_refl)). specialize (IH (fun x Hx => H x (or_intror Hx))). unfold nsum in IH. lia. Qed.

Lemma nsum_add {A} (f g : A -> nat) l : nsum (map (fun a => f a + g a)%nat l) = (nsum (map f l) + nsum (map g l))%nat.
Proof. induction l as [|a l IH]; [reflexivity|]. cbn [map nsum fold_right]. unfold nsum in IH. lia. Qed.

Lemma nsum_type (x y : nat) (l : list rwreq) : nsum (map (fun b : rwreq => if snd b then x else y) l) =
  (length (filter (fun b : rwreq => snd b) l) * x + length (filter (fun b : rwreq => negb (snd b)) l) * y)%nat.
Proof. induction l as [|a l IH]; [reflexivity|]. cbn [map nsum fold_right filter]. unfold nsum in IH. destruct (snd a); cbn [negb length]; lia. Qed.

Lemma type_split (l : list rwreq) : length l = (length (filter (fun b : rwreq => snd b) l) + length (filter (fun b : rwreq => negb (snd b)) l))%nat.
Proof. induction l as [|a l IH]; [reflexivity|]. cbn [filter]. destruct (snd a); cbn [negb length]; lia. Qed.

Lemma zsum_types (l : list rwreq) : zsum (map rdur l) = zsum (map rdur (filter (fun b : rwreq => snd b) l)) + zsum (map rdur (filter (fun b : rwreq => negb (snd b)) l)).
Proof. induction l as [|a l IH]; [reflexivity|]. cbn [map filter]. rewrite zsum_cons, IH. destruct (snd a); cbn [negb map]; rewrite zsum_cons; lia. Qed.

Lemma length_partition {A} (g : A -> nat) l n : (forall a, In a l -> (g a < n)%nat) -> length l = nsum (map (fun c => length (filter (fun a => Nat.eqb (g a) c) l)) (seq 0 n)).
Proof.
  intros H. pose proof (zsum_partition' (fun _ => 1) g l n H) as P.
  assert (E : forall m : list A, zsum (map (fun _ => 1) m) = Z.of_nat (length m)) by (induction m as [|a m IH]; [reflexivity|]; cbn [map length]; rewrite zsum_cons, IH; lia).
  rewrite E in P. apply Nat2Z.inj. rewrite P. generalize (seq 0 n). induction l0 as [|c s IH]; [reflexivity|]. cbn [map nsum fold_right]. rewrite zsum_cons, E, IH. unfold nsum. lia.
Qed.

(** * Blocking from all clusters *)
Lemma writes_all_clusters info (lim : nat -> N * N) q interval ex :
  bound_blocking_all_clusters (cluster_writes info) (map lim (seq 0 (length (cluster_writes info)))) q interval ex =
  Inter (sumN (map (fun c => i_count (bound_blocking (wcont info c q) interval (fst (lim c)) (snd (lim c)) ex 0)) (seq 0 (num_clusters info))))
        (sumN (map (fun c => i_len (bound_blocking (wcont info c q) interval (fst (lim c)) (snd (lim c)) ex 0)) (seq 0 (num_clusters info)))).
Proof.
  unfold bound_blocking_all_clusters. rewrite (combine_seq []). rewrite cluster_writes_length.
  set (g := fun c => bound_blocking (wcont info c q) interval (fst (lim c)) (snd (lim c)) ex 0).
  assert (G : forall l acc, fold_left (fun inter p => let '(resources, (total, src)) := p in
     if Nat.ltb q (length resources) then iadd inter (bound_blocking (nth q resources []) interval total src ex 0) else inter)
     (map (fun i => (nth i (cluster_writes info) [], lim i)) l) acc = fold_left (fun b c => iadd b (g c)) l acc).
  { induction l as [|c r IH]; intros acc; [reflexivity|]. cbn [map fold_left]. rewrite IH. f_equal.
    destruct (lim c) as [total src] eqn:EL. destruct (Nat.ltb_spec q (length (nth c (cluster_writes info) []))) as [L|L].
    - rewrite cluster_writes_nth. subst g. cbn beta. rewrite EL. reflexivity.
    - assert (E : wcont info c q = []) by (rewrite <- cluster_writes_nth; apply nth_overflow; exact L).
      subst g. cbn beta. rewrite E. symmetry. apply iadd_0_r. }
  rewrite G, fold_iadd. rewrite iadd_0_l. reflexivity.
Qed.

Definition parallel (procs : N) (irq : option nat) (own c : nat) : N := let p := available procs irq c in if Nat.eqb own c then (p - 1)%N else p.

Lemma parallel_eq procs irq own idx :
  (let parallelism := procs in
   let parallelism := if match irq with Some i => Nat.eqb idx i | None => false end then parallelism - 1 else parallelism in
   if negb (parallelism =? 0) && Nat.eqb own idx then parallelism - 1 else parallelism)%N = parallel procs irq own idx.
Proof.
  cbv zeta. unfold parallel, available. destruct irq as [i0|].
  - rewrite (Nat.eqb_sym i0 idx). destruct (Nat.eqb idx i0), (Nat.eqb own idx); cbn [andb];
    repeat match goal with |- context[N.eqb ?x 0] => destruct (N.eqb_spec x 0) end; cbn [negb andb]; lia.
  - destruct (Nat.eqb own idx); destruct (N.eqb_spec procs 0); cbn [negb andb]; lia.
Qed.

Definition pf_lim (procs : N) (irq : option nat) (own : nat) (nw nr : N) (c : nat) : N * N :=
  let p := parallel procs irq own c in ((if negb (p =? 0) then nr + nw * p else 0), nr + nw)%N.

Lemma pf_writer_eq info tsk nw nr q procs irq :
  pf_writer_fifo tsk (cluster_writes info) nw nr q procs irq =
  Inter (sumN (map (fun c => i_count (bound_blocking (wcont info c q) (ti_response tsk) (fst (pf_lim procs irq (ti_cluster tsk) nw nr c)) (nr + nw) (ti_id tsk) 0)) (seq 0 (num_clusters info))))
        (sumN (map (fun c => i_len (bound_blocking (wcont info c q) (ti_response tsk) (fst (pf_lim procs irq (ti_cluster tsk) nw nr c)) (nr + nw) (ti_id tsk) 0)) (seq 0 (num_clusters info)))).
Proof.
  unfold pf_writer_fifo. rewrite <- (writes_all_clusters info (pf_lim procs irq (ti_cluster tsk) nw nr)). f_equal. unfold pf_writer_limits. apply map_ext. intros c.
  unfold pf_lim. rewrite <- parallel_eq. reflexivity.
Qed.

Section PF.
Variables (info : list taskinfo) (procs : N) (irq : option nat) (rel comp : nat -> nat -> Z) (res : nat) (tr : list rwreq).
Variable W : wf_rw info.
Variable SJ : forall t, In t info -> sporadic_jobs (ti_period t) (ti_response t) (rel (ti_id t)) (comp (ti_id t)).
Variable PF : phase_fair_execution info procs irq rel comp res tr.
Variables (tsk : taskinfo) (k : nat).
Variable Htsk : In tsk info.
Variable mine : list rwreq.
Variable Hmine : forall b, In b mine -> In b tr /\ rtask b = ti_id tsk /\ cr_job (fst b) = k.
Variable Hapart : ForallOrdPairs (fun a b => apart (fst a) (fst b)) mine.

Let RT : rw_trace info procs irq rel comp res tr := pf_trace _ _ _ _ _ _ _ PF.
Let times a (Ha : In a tr) := rt_times' info procs irq rel comp res tr RT a Ha.

Definition wblk (a b : rwreq) : bool := negb (snd a) && ((cr_start (fst a) <? cr_start (fst b)) && (cr_issue (fst b) <? cr_end (fst a))).
Definition rholds (x : Z) (r : rwreq) : bool := snd r && ((cr_start (fst r) <=? x) && (x <? cr_end (fst r))).
Definition longest (x : Z) (r : rwreq) : bool := rholds x r && forallb (fun r' => negb (rholds x r') || later r' r) tr.
Definition anchors (b : rwreq) : list Z := cr_issue (fst b) :: (if snd b then [] else map (fun a => cr_end (fst a)) (filter (fun a => wblk a b) tr)).
Definition inwin (b : rwreq) (x : Z) : bool := (cr_issue (fst b) <=? x) && (x <? cr_start (fst b)).
Definition rblk (r b : rwreq) : bool := existsb (fun x => inwin b x && longest x r) (anchors b).
Definition pblocks (a b : rwreq) : bool := wblk a b || rblk a b.

Lemma wblk_spec a b : wblk a b = true <-> snd a = false /\ cr_start (fst a) < cr_start (fst b) /\ cr_issue (fst b) < cr_end (fst a).
Proof. unfold wblk. rewrite !andb_true_iff, negb_true_iff, !Z.ltb_lt. tauto. Qed.
Lemma rholds_spec x r : rholds x r = true <-> snd r = true /\ holds (fst r) x.
Proof. unfold rholds, holds. rewrite !andb_true_iff, Z.leb_le, Z.ltb_lt. tauto. Qed.
Lemma inwin_spec b x : inwin b x = true <-> waits (fst b) x.
Proof. unfold inwin, waits. rewrite !andb_true_iff, Z.leb_le, Z.ltb_lt. tauto. Qed.
Lemma longest_spec x r : longest x r = true <-> (snd r = true /\ holds (fst r) x) /\ forall r', In r' tr -> snd r' = true -> holds (fst r') x -> later r' r = true.
Proof.
  unfold longest. rewrite andb_true_iff, rholds_spec, forallb_forall. split; intros [H1 H2]; (split; [exact H1|]).
  - intros r' I S H. specialize (H2 r' I). apply orb_true_iff in H2. destruct H2 as [H2|H2]; [|exact H2]. apply negb_true_iff in H2. assert (rholds x r' = true) by (apply rholds_spec; auto). congruence.
  - intros r' I. destruct (rholds x r') eqn:E; [|reflexivity]. apply rholds_spec in E. cbn. apply H2; tauto.
Qed.
Lemma rblk_spec r b : rblk r b = true <-> exists x, In x (anchors b) /\ waits (fst b) x /\ longest x r = true.
Proof. unfold rblk. rewrite existsb_exists. split; intros [x [H1 H2]]; exists x; rewrite andb_true_iff, inwin_spec in *; tauto. Qed.
Lemma rblk_read r b : rblk r b = true -> snd r = true.
Proof. intros H. apply rblk_spec in H. destruct H as [x [_ [_ H]]]. apply longest_spec in H. tauto. Qed.

Lemma pblocks_facts a b : In a tr -> In b mine -> pblocks a b = true -> cr_start (fst a) < cr_start (fst b) /\ cr_issue (fst b) < cr_end (fst a).
Proof.
  intros Ha Hb H. apply orb_true_iff in H. destruct H as [H|H]; [apply wblk_spec in H; tauto|]. apply rblk_spec in H. destruct H as [x [_ [H1 H2]]]. apply longest_spec in H2.
  unfold waits, holds in *. lia.
Qed.

Lemma in_pair (a : rwreq) d : In a tr -> snd a = d -> In (fst a, d) tr.
Proof. destruct a as [c e]. cbn. intros H <-. exact H. Qed.

Lemma longest_exists x r : In r tr -> snd r = true -> holds (fst r) x -> exists r', In r' tr /\ longest x r' = true /\ cr_end (fst r) <= cr_end (fst r').
Proof.
  intros Hr Sr Hh. assert (I : In r (filter (rholds x) tr)) by (apply filter_In; split; [exact Hr|]; apply rholds_spec; auto).
  destruct (latest (filter (rholds x) tr)) as [r' [R1 R2]]; [intros E; rewrite E in I; destruct I|].
  exists r'. apply filter_In in R1. destruct R1 as [R1 R3]. split; [exact R1|]. split.
  - apply longest_spec. apply rholds_spec in R3. split; [exact R3|]. intros r0 I0 S0 H0. apply R2. apply filter_In. split; [exact I0|]. apply rholds_spec; auto.
  - specialize (R2 r I). apply later_spec in R2. lia.
Qed.

Lemma longest_unique x : (length (filter (longest x) tr) <= 1)%nat.
Proof.
  assert (ND : NoDup (map cr_task (map fst (filter (longest x) tr)))).
  { rewrite map_map. pose proof (fop_filter _ (longest x) tr (rt_sequential _ _ _ _ _ _ _ RT)) as F.
    assert (F2 : ForallOrdPairs (fun a b : rwreq => cr_task (fst a) <> cr_task (fst b)) (filter (longest x) tr)).
    { revert F. apply fop_impl_in. intros a b Ha Hb F E. specialize (F E). apply filter_In in Ha, Hb. destruct Ha as [Ia Ha], Hb as [Ib Hb]. apply longest_spec in Ha, Hb.
      pose proof (times a Ia). pose proof (times b Ib). unfold apart, holds in *. lia. }
    clear - F2. induction F2 as [|a l F P IH]; cbn; constructor; [|exact IH]. intros X. apply in_map_iff in X. destruct X as [y [E Y]]. rewrite Forall_forall in F. apply (F y Y). congruence. }
  assert (E : forall a b, In a (filter (longest x) tr) -> In b (filter (longest x) tr) -> rtask a = rtask b).
  { intros a b Ha Hb. apply filter_In in Ha, Hb. destruct Ha as [Ia Ha], Hb as [Ib Hb]. apply longest_spec in Ha, Hb. destruct Ha as [[A1 A2] A3], Hb as [[B1 B2] B3].
    specialize (A3 b Ib B1 B2). specialize (B3 a Ia A1 A2). apply later_spec in A3, B3. lia. }
  destruct (filter (longest x) tr) as [|a [|b l]]; cbn [length]; [lia|lia|]. exfalso. cbn [map] in ND. inversion ND as [|u v NI _]; subst. apply NI. left. symmetry. apply (E a b); [left|right; left]; reflexivity.
Qed.

(** ** Every waiting instant is covered *)
Lemma pf_cover b t : In b mine -> waits (fst b) t -> exists a, In a tr /\ pblocks a b = true /\ holds (fst a) t.
Proof.
  intros Hb Hw. pose proof (proj1 (Hmine b Hb)) as Ib. destruct b as [b d]. cbn [fst] in *. destruct d.
  - (* a read *)
    destruct (pf_read_waits _ _ _ _ _ _ _ PF b t Ib Hw) as [[a [Ia Ha]]|[r [w [Ir [Iw [Hr Hww]]]]]].
    + exists (a, false). split; [exact Ia|]. split; [|exact Ha]. apply orb_true_iff. left. apply wblk_spec. cbn. unfold holds, waits in *. split; [reflexivity|lia].
    + assert (S : cr_start r <= cr_issue b).
      { destruct (Z.leb_spec (cr_start r) (cr_issue b)) as [L|L]; [exact L|]. exfalso. pose proof (times _ Ib) as Tb. pose proof (times _ Ir) as Tr. cbn [fst] in *.
        assert (W0 : waits b (cr_issue b)) by (unfold waits in *; lia).
        destruct (pf_read_waits _ _ _ _ _ _ _ PF b (cr_issue b) Ib W0) as [[a [Ia Ha]]|[r' [w' [Ir' [Iw' [Hr' Hw']]]]]].
        - pose proof (pf_exclusive _ _ _ _ _ _ _ PF r a Ir Ia) as X. pose proof (pf_one_writer _ _ _ _ _ _ _ PF b a Ib Ia) as Y. unfold holds, waits in *. lia.
        - pose proof (pf_exclusive _ _ _ _ _ _ _ PF r w' Ir Iw') as X. pose proof (pf_one_writer _ _ _ _ _ _ _ PF b w' Ib Iw') as Y. pose proof (times _ Iw') as Tw. cbn [fst] in Tw. unfold holds, waits in *.
          destruct X as [X|X]; [|lia]. destruct (pf_no_joining _ _ _ _ _ _ _ PF r w' Ir Iw') as [a [Ia Ea]]; [lia|].
          pose proof (pf_one_writer _ _ _ _ _ _ _ PF b a Ib Ia) as Z. lia. }
      assert (H0 : holds r (cr_issue b)) by (unfold holds, waits in *; lia).
      destruct (longest_exists (cr_issue b) (r, true) Ir eq_refl H0) as [r' [R1 [R2 R3]]]. cbn [fst] in R3.
      exists r'. split; [exact R1|]. split.
      * apply orb_true_iff. right. apply rblk_spec. exists (cr_issue b). split; [left; reflexivity|]. split; [unfold waits in *; cbn [fst]; lia|exact R2].
      * apply longest_spec in R2. unfold holds, waits in *. lia.
  - (* a write *)
    destruct (pf_write_waits _ _ _ _ _ _ _ PF b t Ib Hw) as [a [d [Ia Ha]]]. destruct d.
    + set (l := map (fun a => cr_end (fst a)) (filter (fun a => wblk a (b, false)) tr)).
      destruct (max_below t (cr_issue b) l ltac:(unfold waits in Hw; lia)) as [x [X1 [X2 [X3 X4]]]].
      assert (S : cr_start a <= x).
      { destruct (Z.leb_spec (cr_start a) (cr_issue b)) as [L|L]; [lia|].
        destruct (pf_no_joining _ _ _ _ _ _ _ PF a b Ia Ib) as [w [Iw Ew]]; [unfold holds, waits in *; lia|].
        rewrite <- Ew. apply X4; [|unfold holds, waits in *; lia]. unfold l. apply in_map_iff. exists (w, false). split; [reflexivity|]. apply filter_In. split; [exact Iw|].
        apply wblk_spec. cbn [fst snd]. pose proof (times _ Iw) as Tw. cbn [fst] in Tw. unfold holds, waits in *. split; [reflexivity|lia]. }
      assert (H0 : holds a x) by (unfold holds, waits in *; lia).
      destruct (longest_exists x (a, true) Ia eq_refl H0) as [r' [R1 [R2 R3]]]. cbn [fst] in R3.
      exists r'. split; [exact R1|]. split.
      * apply orb_true_iff. right. apply rblk_spec. exists x. split; [exact X1|]. split; [unfold waits in *; cbn [fst]; lia|exact R2].
      * apply longest_spec in R2. unfold holds, waits in *. lia.
    + exists (a, false). split; [exact Ia|]. split; [|exact Ha]. apply orb_true_iff. left. apply wblk_spec. cbn [fst snd]. unfold holds, waits in *. split; [reflexivity|lia].
Qed.

(** ** Writers *)
Lemma wblk_done a b : In a tr -> In b tr -> wblk a b = true -> cr_end (fst a) <= cr_start (fst b) /\ (snd b = false -> cr_issue (fst a) <= cr_issue (fst b)).
Proof.
  intros Ha Hb H. apply wblk_spec in H. destruct H as [H1 [H2 H3]]. pose proof (times a Ha). pose proof (times b Hb). destruct (snd b) eqn:D.
  - split; [|discriminate]. destruct (pf_exclusive _ _ _ _ _ _ _ PF (fst b) (fst a) (in_pair b true Hb D) (in_pair a false Ha H1)); lia.
  - destruct (fop_cases _ _ a b (pf_writers _ _ _ _ _ _ _ PF) Ha Hb) as [E|[E|E]]; [subst; lia| |]; specialize (E ltac:(assumption) ltac:(assumption)); [split; [lia|intros _; lia]|lia].
Qed.

Lemma wblk_disjoint : ForallOrdPairs (fun b b' => forall a, In a tr -> negb (snd a) = true -> pblocks a b = true -> pblocks a b' = true -> False) mine.
Proof.
  assert (G : forall b b', In b mine -> In b' mine -> apart (fst b) (fst b') -> forall a, In a tr -> negb (snd a) = true -> pblocks a b = true -> pblocks a b' = true -> False).
  { intros b b' Hb Hb' AP a Ha Sa B1 B2. assert (P : forall b, pblocks a b = true -> wblk a b = true).
    { intros x X. apply orb_true_iff in X. destruct X as [X|X]; [exact X|]. apply rblk_read in X. rewrite X in Sa. discriminate. }
    apply P in B1, B2. apply Hmine in Hb, Hb'. destruct Hb as [Ib _], Hb' as [Ib' _].
    pose proof (wblk_done a b Ha Ib B1) as [D1 _]. pose proof (wblk_done a b' Ha Ib' B2) as [D2 _]. apply wblk_spec in B1, B2. pose proof (times b Ib). pose proof (times b' Ib'). unfold apart in AP. lia. }
  eapply fop_impl_in; [|exact Hapart]. intros b b' Hb Hb' AP. apply (G b b' Hb Hb' AP).
Qed.

Notation rclu := (rcluster info).

(** requests that all occupy their processors at one instant *)
Lemma cluster_occupied (l : list rwreq) x c : ForallOrdPairs (fun a b => forall t u, nth_error info (cr_task (fst a)) = Some t -> nth_error info (cr_task (fst b)) = Some u ->
    ti_cluster t = ti_cluster u -> cr_cpu (fst a) = cr_cpu (fst b) -> apart (fst a) (fst b)) l ->
  (forall a, In a l -> In a tr /\ rclu a = c /\ cr_issue (fst a) <= x < cr_end (fst a)) -> NoDup (map (fun a => cr_cpu (fst a)) l).
Proof.
  intros F H. assert (F2 : ForallOrdPairs (fun a b : rwreq => cr_cpu (fst a) <> cr_cpu (fst b)) l).
  { revert F. apply fop_impl_in. intros a b Ha Hb F E. destruct (H a Ha) as [Ia [Ca Xa]]. destruct (H b Hb) as [Ib [Cb Xb]].
    destruct (rt_spec' info procs irq rel comp res tr RT a Ia) as [t [q [N1 _]]]. destruct (rt_spec' info procs irq rel comp res tr RT b Ib) as [u [q' [M1 _]]].
    unfold rcluster in Ca, Cb. rewrite N1 in Ca. rewrite M1 in Cb. specialize (F t u N1 M1 ltac:(congruence) E). unfold apart in F. lia. }
  clear - F2. induction F2 as [|a l F P IH]; cbn; constructor; [|exact IH]. intros X. apply in_map_iff in X. destruct X as [y [E Y]]. rewrite Forall_forall in F. apply (F y Y). congruence.
Qed.

Lemma cpu_lt a : In a tr -> (N.of_nat (cr_cpu (fst a)) < available procs irq (rclu a))%N.
Proof.
  intros Ia. destruct (rt_spec' info procs irq rel comp res tr RT a Ia) as [t [q [N1 _]]]. unfold rcluster. rewrite N1. destruct a as [a d]. apply (rt_cpu _ _ _ _ _ _ _ RT a d t Ia N1).
Qed.

Lemma mine_cluster b : In b mine -> rclu b = ti_cluster tsk.
Proof. intros Hb. apply Hmine in Hb. destruct Hb as [_ [T _]]. unfold rcluster. rewrite T, (wfr_id info tsk W Htsk). reflexivity. Qed.

Lemma own_cpu a b : In a tr -> In b mine -> pblocks a b = true -> rclu a = ti_cluster tsk -> cr_cpu (fst a) <> cr_cpu (fst b).
Proof.
  intros Ha Hb H C. destruct (pblocks_facts a b Ha Hb H) as [B1 B2]. pose proof (Hmine b Hb) as [Ib [Tb _]].
  destruct (rt_spec' info procs irq rel comp res tr RT a Ha) as [t [q [N1 _]]]. pose proof (wfr_id info tsk W Htsk) as N2.
  unfold rcluster in C. rewrite N1 in C. apply (overlap_cpu info procs irq rel comp res tr RT a b t tsk Ha Ib B1 B2 N1); [rewrite Tb; exact N2|exact C].
Qed.

Lemma writers_per_cluster b c : In b mine -> (length (filter (fun a => pblocks a b && (negb (snd a) && Nat.eqb (rclu a) c)) tr) <=
  if N.eqb (parallel procs irq (ti_cluster tsk) c) 0 then 0 else if snd b then 1 else N.to_nat (parallel procs irq (ti_cluster tsk) c))%nat.
Proof.
  intros Hb. set (M := filter _ tr).
  assert (MI : forall a, In a M -> In a tr /\ wblk a b = true /\ rclu a = c).
  { intros a Ha. apply filter_In in Ha. destruct Ha as [Ia Ha]. apply andb_true_iff in Ha. destruct Ha as [P Q]. apply andb_true_iff in Q. destruct Q as [Q1 Q2]. apply Nat.eqb_eq in Q2.
    split; [exact Ia|]. split; [|exact Q2]. apply orb_true_iff in P. destruct P as [P|P]; [exact P|]. apply rblk_read in P. rewrite P in Q1. discriminate. }
  assert (CPU : forall a, In a M -> (N.of_nat (cr_cpu (fst a)) < available procs irq c)%N /\ (ti_cluster tsk = c -> cr_cpu (fst a) <> cr_cpu (fst b))).
  { intros a Ha. destruct (MI a Ha) as [Ia [Wa Ca]]. split; [rewrite <- Ca; apply cpu_lt; exact Ia|]. intros E. apply own_cpu; [exact Ia|exact Hb| |congruence]. apply orb_true_iff. left. exact Wa. }
  assert (POS : (length M <> 0)%nat -> (0 < parallel procs irq (ti_cluster tsk) c)%N).
  { destruct M as [|a M']; [cbn; lia|]. intros _. destruct (CPU a (or_introl eq_refl)) as [C1 C2]. unfold parallel. destruct (Nat.eqb_spec (ti_cluster tsk) c) as [E|E]; [|lia].
    specialize (C2 E). pose proof (cpu_lt b (proj1 (Hmine b Hb))) as C3. rewrite (mine_cluster b Hb), E in C3. lia. }
  destruct (N.eqb_spec (parallel procs irq (ti_cluster tsk) c) 0) as [Z|Z]; [destruct (Nat.eq_dec (length M) 0); [lia|specialize (POS n); lia]|].
  destruct (snd b) eqn:D.
  - assert (F : ForallOrdPairs (fun a a' : rwreq => False) M).
    { pose proof (fop_filter _ (fun a => pblocks a b && (negb (snd a) && Nat.eqb (rclu a) c)) tr (pf_writers _ _ _ _ _ _ _ PF)) as F. fold M in F. revert F. apply fop_impl_in.
      intros a a' Ha Ha' F. destruct (MI a Ha) as [Ia [Wa _]]. destruct (MI a' Ha') as [Ia' [Wa' _]]. apply wblk_spec in Wa, Wa'. specialize (F (proj1 Wa) (proj1 Wa')).
      pose proof (pf_one_writer _ _ _ _ _ _ _ PF (fst b) (fst a) (in_pair b true (proj1 (Hmine b Hb)) D) (in_pair a false Ia (proj1 Wa))). lia. }
    destruct M as [|a [|a' M']]; cbn [length]; [lia|lia|]. inversion F as [|u v X _]; subst. rewrite Forall_forall in X. destruct (X a' (or_introl eq_refl)).
  - assert (ND : NoDup (map (fun a => cr_cpu (fst a)) M)).
    { apply (cluster_occupied M (cr_issue (fst b)) c).
      - apply fop_filter. apply (rt_nonpreemptive _ _ _ _ _ _ _ RT).
      - intros a Ha. destruct (MI a Ha) as [Ia [Wa Ca]]. destruct (wblk_done a b Ia (proj1 (Hmine b Hb)) Wa) as [_ X]. specialize (X D). apply wblk_spec in Wa. repeat split; auto; lia. }
    assert (L : (N.of_nat (length (map (fun a => cr_cpu (fst a)) M)) <= parallel procs irq (ti_cluster tsk) c)%N).
    { unfold parallel. destruct (Nat.eqb_spec (ti_cluster tsk) c) as [E|E].
      - apply (nodup_lt_length_avoid _ _ (cr_cpu (fst b)) ND).
        + intros x Hx. apply in_map_iff in Hx. destruct Hx as [a [<- Ha]]. destruct (CPU a Ha) as [C1 C2]. auto.
        + rewrite <- E, <- (mine_cluster b Hb). apply cpu_lt. apply Hmine. exact Hb.
      - apply (nodup_lt_length _ _ ND). intros x Hx. apply in_map_iff in Hx. destruct Hx as [a [<- Ha]]. apply (CPU a Ha). }
    rewrite map_length in L. lia.
Qed.

Lemma writers_per_task b c i : In b mine -> (length (filter (fun a => pblocks a b && (negb (snd a) && Nat.eqb (rclu a) c && Nat.eqb (rtask a) i)) tr) <= 1)%nat.
Proof.
  intros Hb. set (M := filter _ tr).
  assert (MI : forall a, In a M -> In a tr /\ wblk a b = true /\ rtask a = i).
  { intros a Ha. apply filter_In in Ha. destruct Ha as [Ia Ha]. apply andb_true_iff in Ha. destruct Ha as [P Q]. apply andb_true_iff in Q. destruct Q as [Q Q2]. apply andb_true_iff in Q. destruct Q as [Q1 _]. apply Nat.eqb_eq in Q2.
    split; [exact Ia|]. split; [|exact Q2]. apply orb_true_iff in P. destruct P as [P|P]; [exact P|]. apply rblk_read in P. rewrite P in Q1. discriminate. }
  pose proof (proj1 (Hmine b Hb)) as Ib.
  assert (F : ForallOrdPairs (fun a a' : rwreq => False) M).
  { pose proof (fop_filter _ (fun a => pblocks a b && (negb (snd a) && Nat.eqb (rclu a) c && Nat.eqb (rtask a) i)) tr (fop_conj _ _ tr (pf_writers _ _ _ _ _ _ _ PF) (rt_sequential _ _ _ _ _ _ _ RT))) as F. fold M in F. revert F. apply fop_impl_in.
    intros a a' Ha Ha' [F1 F2]. destruct (MI a Ha) as [Ia [Wa Ta]]. destruct (MI a' Ha') as [Ia' [Wa' Ta']]. pose proof (wblk_done a b Ia Ib Wa) as D1. pose proof (wblk_done a' b Ia' Ib Wa') as D2. apply wblk_spec in Wa, Wa'. specialize (F1 (proj1 Wa) (proj1 Wa')).
    unfold rtask in Ta, Ta'. specialize (F2 ltac:(congruence)). pose proof (times a Ia). pose proof (times a' Ia'). destruct (snd b) eqn:D.
    - pose proof (pf_one_writer _ _ _ _ _ _ _ PF (fst b) (fst a) (in_pair b true Ib D) (in_pair a false Ia (proj1 Wa))). lia.
    - unfold apart in F2. destruct D1 as [_ D1], D2 as [_ D2]. specialize (D1 eq_refl). specialize (D2 eq_refl). lia. }
  destruct M as [|a [|a' M']]; cbn [length]; [lia|lia|]. inversion F as [|u v X _]; subst. rewrite Forall_forall in X. destruct (X a' (or_introl eq_refl)).
Qed.

(** ** Readers *)
Definition nwblk (b : rwreq) : nat := length (filter (fun a => pblocks a b && negb (snd a)) tr).

Lemma nwblk_eq b : nwblk b = length (filter (fun a => wblk a b) tr).
Proof.
  unfold nwblk. f_equal. apply filter_ext_in. intros a _. unfold pblocks. destruct (rblk a b) eqn:R; [|rewrite orb_false_r; unfold wblk; destruct (snd a); cbn; [reflexivity|rewrite andb_true_r; reflexivity]].
  pose proof (rblk_read a b R) as S. unfold wblk. rewrite S. cbn. reflexivity.
Qed.

Lemma readers_anchors b : (length (filter (fun a => pblocks a b && snd a) tr) <= length (filter (fun x => inwin b x && existsb (longest x) tr) (anchors b)))%nat.
Proof.
  assert (E : (length (filter (fun a => pblocks a b && snd a) tr) <= length (filter (fun a => rblk a b) tr))%nat).
  { apply filter_sub. intros a _ X. apply andb_true_iff in X. destruct X as [X1 X2]. apply orb_true_iff in X1. destruct X1 as [X1|X1]; [|exact X1]. apply wblk_spec in X1. destruct X1 as [X1 _]. congruence. }
  etransitivity; [exact E|]. etransitivity; [apply (filter_exists_count (fun x a => inwin b x && longest x a) (anchors b) tr)|].
  - intros x _. etransitivity; [|apply (longest_unique x)]. apply filter_sub. intros a _ X. apply andb_true_iff in X. apply X.
  - apply filter_sub. intros x _ X. apply existsb_exists in X. destruct X as [a [Ia X]]. apply andb_true_iff in X. destruct X as [X1 X2]. rewrite X1. apply existsb_exists. exists a. auto.
Qed.

(** a read that waits for readers also waits for a writer *)
Lemma read_phase b : In b mine -> snd b = true -> (length (filter (fun a => pblocks a b && snd a) tr) <= 1)%nat /\ (length (filter (fun a => pblocks a b && snd a) tr) <= nwblk b)%nat.
Proof.
  intros Hb D. pose proof (readers_anchors b) as RA. unfold anchors in RA. rewrite D in RA. cbn [filter] in RA.
  destruct (inwin b (cr_issue (fst b)) && existsb (longest (cr_issue (fst b))) tr) eqn:E; cbn [length] in RA; [|lia]. split; [exact RA|].
  apply andb_true_iff in E. destruct E as [E1 E2]. apply inwin_spec in E1. apply existsb_exists in E2. destruct E2 as [r [Ir Lr]]. apply longest_spec in Lr. destruct Lr as [[Sr Hr] _].
  pose proof (proj1 (Hmine b Hb)) as Ib. pose proof (in_pair b true Ib D) as Ib'. pose proof (in_pair r true Ir Sr) as Ir'.
  assert (X : exists w, In (w, false) tr /\ cr_start w < cr_start (fst b) /\ cr_issue (fst b) < cr_end w).
  { pose proof (times b Ib) as Tb. destruct (pf_read_waits _ _ _ _ _ _ _ PF (fst b) (cr_issue (fst b)) Ib' E1) as [[a [Ia Ha]]|[r' [w [Ir2 [Iw [Hr2 Hw]]]]]].
    - exists a. split; [exact Ia|]. unfold holds, waits in *. lia.
    - pose proof (times _ Iw) as Tw. cbn [fst] in Tw. destruct (Z.ltb_spec (cr_start w) (cr_start (fst b))) as [L|L].
      + exists w. split; [exact Iw|]. unfold holds, waits in *. lia.
      + pose proof (pf_exclusive _ _ _ _ _ _ _ PF (fst b) w Ib' Iw) as X. destruct (pf_no_joining _ _ _ _ _ _ _ PF (fst b) w Ib' Iw) as [a [Ia Ea]].
        { unfold waits in *. lia. }
        exists a. split; [exact Ia|]. pose proof (times _ Ia) as Ta. cbn [fst] in Ta. unfold waits in *. lia. }
  destruct X as [w [Iw Xw]]. rewrite nwblk_eq. assert (I : In (w, false) (filter (fun a => wblk a b) tr)) by (apply filter_In; split; [exact Iw|]; apply wblk_spec; cbn; split; [reflexivity|exact Xw]).
  destruct (filter (fun a => wblk a b) tr); [destruct I|cbn [length]; lia].
Qed.

(** all processors *)
Lemma all_occupied (l : list rwreq) x : ForallOrdPairs (fun a b => forall t u, nth_error info (cr_task (fst a)) = Some t -> nth_error info (cr_task (fst b)) = Some u ->
    ti_cluster t = ti_cluster u -> cr_cpu (fst a) = cr_cpu (fst b) -> apart (fst a) (fst b)) l ->
  (forall a, In a l -> In a tr /\ cr_issue (fst a) <= x < cr_end (fst a)) -> (length l <= num_clusters info * N.to_nat procs)%nat.
Proof.
  intros F H. rewrite (length_partition rclu l (num_clusters info)) by (intros a Ha; apply (rcluster_lt info procs irq rel comp res tr RT); apply H; exact Ha).
  assert (G : forall s, (nsum (map (fun c => length (filter (fun a => Nat.eqb (rclu a) c) l)) s) <= length s * N.to_nat procs)%nat).
  { induction s as [|c s IH]; [cbn; lia|]. cbn [map nsum fold_right length]. unfold nsum in IH.
    assert (C : (length (filter (fun a => Nat.eqb (rclu a) c) l) <= N.to_nat procs)%nat); [|lia].
    rewrite <- (map_length (fun a : rwreq => cr_cpu (fst a))).
    assert (ND : NoDup (map (fun a : rwreq => cr_cpu (fst a)) (filter (fun a => Nat.eqb (rclu a) c) l))).
    { apply (cluster_occupied _ x c); [apply fop_filter; exact F|]. intros a Ha. apply filter_In in Ha. destruct Ha as [Ha E]. apply Nat.eqb_eq in E. destruct (H a Ha). auto. }
    assert (X : (N.of_nat (length (map (fun a : rwreq => cr_cpu (fst a)) (filter (fun a => Nat.eqb (rclu a) c) l))) <= procs)%N); [|lia].
    apply (nodup_lt_length _ _ ND). intros y Hy. apply in_map_iff in Hy. destruct Hy as [a [<- Ha]]. apply filter_In in Ha. destruct Ha as [Ha _].
    pose proof (cpu_lt a (proj1 (H a Ha))) as Q. unfold available in Q. lia. }
  specialize (G (seq 0 (num_clusters info))). rewrite seq_length in G. exact G.
Qed.

Lemma write_phase b : In b mine -> snd b = false -> (length (filter (fun a => pblocks a b && snd a) tr) <= nwblk b + 1)%nat /\
  (length (filter (fun a => pblocks a b && snd a) tr) + 1 <= num_clusters info * N.to_nat procs)%nat.
Proof.
  intros Hb D. pose proof (readers_anchors b) as RA. unfold anchors in RA. rewrite D in RA. cbn [filter] in RA. rewrite nwblk_eq.
  set (Ws := filter (fun a => wblk a b) tr) in *. pose proof (proj1 (Hmine b Hb)) as Ib. pose proof (times b Ib) as Tb.
  assert (LE : (length (filter (fun x => inwin b x && existsb (longest x) tr) (map (fun a => cr_end (fst a)) Ws)) <= length Ws)%nat).
  { rewrite filter_map, map_length. clear. induction Ws as [|a l IH]; [cbn; lia|]. cbn [filter]. destruct (inwin _ _ && _); cbn [length]; lia. }
  assert (FOP : forall p, ForallOrdPairs (fun a b => forall t u, nth_error info (cr_task (fst a)) = Some t -> nth_error info (cr_task (fst b)) = Some u ->
    ti_cluster t = ti_cluster u -> cr_cpu (fst a) = cr_cpu (fst b) -> apart (fst a) (fst b)) (filter p tr)) by (intros p; apply fop_filter; apply (rt_nonpreemptive _ _ _ _ _ _ _ RT)).
  assert (OCC : forall a, In a Ws -> In a tr /\ cr_issue (fst a) <= cr_issue (fst b) < cr_end (fst a)).
  { intros a Ha. apply filter_In in Ha. destruct Ha as [Ia Wa]. destruct (wblk_done a b Ia Ib Wa) as [_ X]. specialize (X D). apply wblk_spec in Wa. split; [exact Ia|lia]. }
  destruct (inwin b (cr_issue (fst b)) && existsb (longest (cr_issue (fst b))) tr) eqn:E; cbn [length] in RA.
  - split; [lia|]. apply andb_true_iff in E. destruct E as [E1 E2]. apply existsb_exists in E2. destruct E2 as [r [Ir Lr]]. apply longest_spec in Lr. destruct Lr as [[Sr Hr] _].
    set (p := fun a : rwreq => wblk a b || ((cr_issue (fst a) <=? cr_issue (fst b)) && (cr_issue (fst b) <? cr_end (fst a)) && (if snd a then true else (cr_start (fst b) <=? cr_start (fst a))))).
    assert (SUB : (length Ws + 2 <= length (filter p tr))%nat).
    { set (p1 := fun a : rwreq => wblk a b || (negb (snd a) && ((cr_issue (fst a) <=? cr_issue (fst b)) && (cr_issue (fst b) <? cr_end (fst a)) && (cr_start (fst b) <=? cr_start (fst a))))).
      assert (S1 : (length Ws < length (filter p1 tr))%nat).
      { apply (filter_strict _ _ tr b); [|exact Ib| |].
        - intros a _ X. unfold p1. rewrite X. reflexivity.
        - unfold p1. rewrite D. destruct (Z.leb_spec (cr_issue (fst b)) (cr_issue (fst b))); [|lia]. destruct (Z.ltb_spec (cr_issue (fst b)) (cr_end (fst b))); [|lia]. destruct (Z.leb_spec (cr_start (fst b)) (cr_start (fst b))); [|lia]. apply orb_true_r.
        - destruct (wblk b b) eqn:X; [|reflexivity]. apply wblk_spec in X. lia. }
      assert (S2 : (length (filter p1 tr) < length (filter p tr))%nat).
      { apply (filter_strict _ _ tr r); [|exact Ir| |].
        - intros a _ X. unfold p1 in X. unfold p. apply orb_true_iff in X. destruct X as [X|X]; [rewrite X; reflexivity|]. apply andb_true_iff in X. destruct X as [X1 X2]. apply negb_true_iff in X1. rewrite X1, X2. apply orb_true_r.
        - unfold p. rewrite Sr. pose proof (times r Ir). unfold holds in Hr. destruct (Z.leb_spec (cr_issue (fst r)) (cr_issue (fst b))); [|lia]. destruct (Z.ltb_spec (cr_issue (fst b)) (cr_end (fst r))); [|lia]. apply orb_true_r.
        - unfold p1. rewrite Sr. cbn [negb andb]. rewrite orb_false_r. unfold wblk. rewrite Sr. reflexivity. }
      lia. }
    assert (AO : (length (filter p tr) <= num_clusters info * N.to_nat procs)%nat); [|lia].
    apply (all_occupied _ (cr_issue (fst b))); [apply FOP|]. intros a Ha. apply filter_In in Ha. destruct Ha as [Ia Pa]. unfold p in Pa. apply orb_true_iff in Pa. destruct Pa as [Pa|Pa].
    + apply OCC. apply filter_In. auto.
    + split; [exact Ia|]. apply andb_true_iff in Pa. destruct Pa as [Pa _]. apply andb_true_iff in Pa. destruct Pa as [P1 P2]. apply Z.leb_le in P1. apply Z.ltb_lt in P2. lia.
  - split; [lia|].
    set (p1 := fun a : rwreq => wblk a b || (negb (snd a) && ((cr_issue (fst a) <=? cr_issue (fst b)) && (cr_issue (fst b) <? cr_end (fst a)) && (cr_start (fst b) <=? cr_start (fst a))))).
    assert (S1 : (length Ws < length (filter p1 tr))%nat).
    { apply (filter_strict _ _ tr b); [|exact Ib| |].
      - intros a _ X. unfold p1. rewrite X. reflexivity.
      - unfold p1. rewrite D. destruct (Z.leb_spec (cr_issue (fst b)) (cr_issue (fst b))); [|lia]. destruct (Z.ltb_spec (cr_issue (fst b)) (cr_end (fst b))); [|lia]. destruct (Z.leb_spec (cr_start (fst b)) (cr_start (fst b))); [|lia]. apply orb_true_r.
      - destruct (wblk b b) eqn:X; [|reflexivity]. apply wblk_spec in X. lia. }
    assert (AO : (length (filter p1 tr) <= num_clusters info * N.to_nat procs)%nat); [|lia].
    apply (all_occupied _ (cr_issue (fst b))); [apply FOP|]. intros a Ha. apply filter_In in Ha. destruct Ha as [Ia Pa]. unfold p1 in Pa. apply orb_true_iff in Pa. destruct Pa as [Pa|Pa].
    + apply OCC. apply filter_In. auto.
    + split; [exact Ia|]. apply andb_true_iff in Pa. destruct Pa as [_ Pa]. apply andb_true_iff in Pa. destruct Pa as [Pa _]. apply andb_true_iff in Pa. destruct Pa as [P1 P2]. apply Z.leb_le in P1. apply Z.ltb_lt in P2. lia.
Qed.

(** ** The bound *)
Variables (nw nr : N).
Hypothesis Hnw : (length (filter (fun b : rwreq => negb (snd b)) mine) <= N.to_nat nw)%nat.
Hypothesis Hnr : (length (filter (fun b : rwreq => snd b) mine) <= N.to_nat nr)%nat.

Notation hitl := (rhit tr mine pblocks).
Notation wlen := (i_len (pf_writer_fifo tsk (cluster_writes info) nw nr res procs irq)).
Notation wcount := (i_count (pf_writer_fifo tsk (cluster_writes info) nw nr res procs irq)).

Lemma writers_bound : zsum (map rdur (filter (fun a : rwreq => negb (snd a)) hitl)) <= Z.of_N wlen /\ (N.of_nat (length (filter (fun a : rwreq => negb (snd a)) hitl)) <= wcount)%N.
Proof.
  rewrite pf_writer_eq; cbn [i_len i_count].
  assert (IN : forall a, In a (filter (fun a : rwreq => negb (snd a)) hitl) -> (rclu a < num_clusters info)%nat).
  { intros a Ha. apply filter_In in Ha. destruct Ha as [Ha _]. apply rhit_in in Ha. apply (rcluster_lt info procs irq rel comp res tr RT). apply Ha. }
  rewrite (zsum_partition' rdur rclu _ (num_clusters info) IN). rewrite (length_partition rclu _ (num_clusters info) IN).
  assert (C : forall c, zsum (map rdur (filter (fun a => Nat.eqb (rclu a) c) (filter (fun a : rwreq => negb (snd a)) hitl))) <= Z.of_N (i_len (bound_blocking (wcont info c res) (ti_response tsk) (fst (pf_lim procs irq (ti_cluster tsk) nw nr c)) (nr + nw) (ti_id tsk) 0)) /\
    (N.of_nat (length (filter (fun a => Nat.eqb (rclu a) c) (filter (fun a : rwreq => negb (snd a)) hitl))) <= i_count (bound_blocking (wcont info c res) (ti_response tsk) (fst (pf_lim procs irq (ti_cluster tsk) nw nr c)) (nr + nw) (ti_id tsk) 0))%N).
  { intros c. rewrite filter_filter. set (p := fun a : rwreq => negb (snd a) && Nat.eqb (rclu a) c).
    rewrite (rsel_total info procs irq rel comp res tr RT mine pblocks p). rewrite <- (rsel_length tr mine pblocks p).
    destruct (writers_cluster info procs irq rel comp res tr W SJ RT tsk k Htsk mine Hmine pblocks pblocks_facts c (fst (pf_lim procs irq (ti_cluster tsk) nw nr c)) (nr + nw)%N p) as [A B].
    - intros a Pa. unfold p in Pa. apply andb_true_iff in Pa. destruct Pa as [P1 P2]. apply negb_true_iff in P1. apply Nat.eqb_eq in P2. auto.
    - pose proof (rhit_count tr mine pblocks p _ (fun b Hb => writers_per_cluster b c Hb)) as R. etransitivity; [exact R|].
      unfold pf_lim; cbn [fst]. destruct (N.eqb (parallel procs irq (ti_cluster tsk) c) 0) eqn:Z; cbn [negb].
      + clear. induction mine as [|b l IH]; [cbn; lia|]. cbn [map nsum fold_right]. unfold nsum in IH. lia.
      + rewrite (nsum_type 1 (N.to_nat (parallel procs irq (ti_cluster tsk) c)) mine). rewrite N2Nat.inj_add, N2Nat.inj_mul. nia.
    - intros i. pose proof (rhit_count tr mine pblocks (fun a => p a && Nat.eqb (rtask a) i) (fun _ => 1%nat) (fun b Hb => writers_per_task b c i Hb)) as R. etransitivity; [exact R|].
      rewrite N2Nat.inj_add. pose proof (type_split mine) as T. assert (E : nsum (map (fun _ : rwreq => 1%nat) mine) = length mine) by (clear; induction mine as [|b l IH]; [reflexivity|]; cbn [map nsum fold_right length]; unfold nsum in IH; lia). lia.
    - split; [lia|exact B]. }
  clear IN. split; generalize (seq 0 (num_clusters info)); induction l as [|c s IH]; try (cbn; lia); cbn [map]; destruct (C c) as [C1 C2].
  - rewrite zsum_cons. unfold sumN in *. cbn [fold_right]. lia.
  - unfold sumN, nsum in *. cbn [fold_right]. lia.
Qed.

Lemma readers_bound : zsum (map rdur (filter (fun a : rwreq => snd a) hitl)) <=
  Z.of_N (i_len (pf_reader_all tsk (all_reads_of info) nw wcount nr res procs (procs * N.of_nat (num_clusters info)))).
Proof.
  rewrite (rsel_total info procs irq rel comp res tr RT mine pblocks (fun a : rwreq => snd a)). apply N2Z.inj_le. unfold pf_reader_all, bound_blocking_cluster. rewrite all_reads_nth.
  set (rl := N.min _ _).
  assert (TOT : (length (filter (fun a : rwreq => snd a) hitl) <= N.to_nat rl)%nat).
  { assert (T1 : (length (filter (fun a : rwreq => snd a) hitl) <= N.to_nat (wcount + nw))%nat).
    { pose proof (rhit_count tr mine pblocks (fun a : rwreq => snd a) (fun b => nwblk b + (if snd b then 0 else 1))%nat) as R. etransitivity; [apply R|].
      - intros b Hb. destruct (snd b) eqn:D; [destruct (read_phase b Hb D); lia|destruct (write_phase b Hb D); lia].
      - rewrite nsum_add, nsum_type. pose proof (rhit_disjoint tr mine pblocks (fun a : rwreq => negb (snd a)) wblk_disjoint) as DJ. fold nwblk in DJ. pose proof (proj2 writers_bound). unfold nwblk. lia. }
    assert (T2 : (length (filter (fun a : rwreq => snd a) hitl) <= N.to_nat (nr + nw * (procs * N.of_nat (num_clusters info) - 1)))%nat).
    { pose proof (rhit_count tr mine pblocks (fun a : rwreq => snd a) (fun b => if snd b then 1 else num_clusters info * N.to_nat procs - 1)%nat) as R. etransitivity; [apply R|].
      - intros b Hb. destruct (snd b) eqn:D; [destruct (read_phase b Hb D); lia|destruct (write_phase b Hb D); lia].
      - rewrite nsum_type. rewrite N2Nat.inj_add, N2Nat.inj_mul. replace (N.to_nat (procs * N.of_nat (num_clusters info) - 1)) with (num_clusters info * N.to_nat procs - 1)%nat by lia. nia. }
    unfold rl. lia. }
  apply cont_safe.
  - apply rcont_nodup, W.
  - apply rcont_sorted.
  - intros i l Hin. unfold rsel in Hin. apply in_map_iff in Hin. destruct Hin as [a [E Ha]]. injection E as <- <-. apply filter_In in Ha. destruct Ha as [Ha Sa].
    destruct (rhit_facts info procs irq rel comp res tr SJ RT tsk k Htsk mine Hmine pblocks pblocks_facts a Ha) as [A1 [A2 _]].
    destruct (rt_spec' info procs irq rel comp res tr RT a A1) as [t [q [N1 [N2 [N3 [N4 N5]]]]]].
    destruct (wfr_nth info _ t W N1) as [E1 E2]. exists (RB t q). split; [apply in_rcont; cbn; rewrite N4; auto|]. split; [exact E1|]. split; [|unfold rb_len; cbn; lia].
    cbn [rb_task]. apply orb_false_iff. split; [apply Nat.eqb_neq; congruence|]. destruct (N.eqb_spec procs 1) as [P|P]; [|reflexivity]. cbn [andb]. apply Nat.eqb_neq. intros C.
    apply rhit_in in Ha. destruct Ha as [_ [b [Hb Pb]]]. assert (Ca : rclu a = ti_cluster tsk) by (unfold rcluster; rewrite N1; exact C).
    apply (own_cpu a b A1 Hb Pb Ca). pose proof (cpu_lt a A1) as L1. pose proof (cpu_lt b (proj1 (Hmine b Hb))) as L2. unfold available in L1, L2. lia.
  - intros r Hr. apply in_rcont in Hr. destruct Hr as [R1 [R3 [R4 R5]]]. destruct r as [t x]. cbn in *.
    apply (rsel_fits info procs irq rel comp res tr W SJ RT tsk k Htsk mine Hmine pblocks pblocks_facts (fun a : rwreq => snd a) true t x); auto.
  - intros i. rewrite rsel_occ. assert ((length (filter (fun a : rwreq => snd a && Nat.eqb (rtask a) i) hitl) <= length (filter (fun a : rwreq => snd a) hitl))%nat); [|lia].
    apply filter_sub. intros a _ X. apply andb_true_iff in X. apply X.
  - rewrite rsel_length. lia.
Qed.

Theorem pf_bound : zsum (map (fun b => cr_start (fst b) - cr_issue (fst b)) mine) <=
  let '(w, r) := pf_blocking procs (procs * N.of_nat (num_clusters info)) irq (cluster_writes info) (all_reads_of info) tsk res nw nr in Z.of_N (i_len w + i_len r).
Proof.
  unfold pf_blocking. etransitivity; [apply (rhit_time info procs irq rel comp res tr RT tsk k mine Hmine Hapart pblocks pf_cover)|].
  rewrite zsum_types. pose proof (proj1 writers_bound). pose proof readers_bound. lia.
Qed.
End PF.
