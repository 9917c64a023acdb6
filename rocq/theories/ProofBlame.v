(** Counting lemmas for blocking bounds: instants that are charged to executing
    requests are no more than the number of such requests times their lengths,
    and the greedy choice dominates every admissible number of requests. *)
From Coq Require Import NArith ZArith List Bool Sorted Permutation Lia Arith.
From Verif Require Import ModelLocking SpecLocking SpecQueue SpecDPCP ProofLocking ProofSpin ProofSpinCount ProofQueue.
Import ListNotations.
Open Scope N_scope.

(** * Sums *)
Definition nsumN {A} (f : A -> N) (l : list A) : N := fold_right (fun a s => f a + s) 0 l.

Lemma nsumN_app {A} (f : A -> N) a b : nsumN f (a ++ b) = nsumN f a + nsumN f b.
Proof. induction a as [|x r IH]; cbn; [reflexivity|]. fold (nsumN f (r ++ b)) (nsumN f r). lia. Qed.

Lemma nsumN_le {A} (f g : A -> N) l : (forall a, In a l -> f a <= g a) -> nsumN f l <= nsumN g l.
Proof. induction l as [|x r IH]; intros H; cbn; [lia|]. specialize (IH (fun a Ha => H a (or_intror Ha))). specialize (H x (or_introl eq_refl)). fold (nsumN f r) (nsumN g r). lia. Qed.

Lemma nsumN_ext {A} (f g : A -> N) l : (forall a, In a l -> f a = g a) -> nsumN f l = nsumN g l.
Proof. intros H. apply N.le_antisymm; apply nsumN_le; intros a Ha; rewrite (H a Ha); reflexivity. Qed.

Lemma nsumN_plus {A} (f g : A -> N) l : nsumN (fun a => f a + g a) l = nsumN f l + nsumN g l.
Proof. induction l as [|x r IH]; cbn; [reflexivity|]. fold (nsumN (fun a => f a + g a) r) (nsumN f r) (nsumN g r). lia. Qed.

Lemma nsumN_zero {A} (l : list A) : nsumN (fun _ => 0) l = 0.
Proof. induction l as [|x r IH]; cbn; [reflexivity|exact IH]. Qed.

Lemma nsumN_concat {A} (f : A -> N) ls : nsumN f (concat ls) = nsumN (nsumN f) ls.
Proof. induction ls as [|l r IH]; [reflexivity|]. cbn [concat]. rewrite nsumN_app, IH. reflexivity. Qed.

Lemma nsumN_map {A B} (g : A -> B) (f : B -> N) l : nsumN f (map g l) = nsumN (fun a => f (g a)) l.
Proof. induction l as [|x r IH]; cbn; [reflexivity|]. f_equal. exact IH. Qed.

Lemma nsumN_perm {A} (f : A -> N) l l' : Permutation l l' -> nsumN f l = nsumN f l'.
Proof. induction 1; cbn; [reflexivity| | |congruence]; unfold nsumN in *; lia. Qed.

Lemma nsumN_nsum {A} (f : A -> nat) l : nsumN (fun a => N.of_nat (f a)) l = N.of_nat (nsum f l).
Proof. induction l as [|x r IH]; cbn; [reflexivity|]. fold (nsumN (fun a => N.of_nat (f a)) r) (nsum f r). lia. Qed.

Lemma nsumN_in {A} (f : A -> N) l a : In a l -> f a <= nsumN f l.
Proof. induction l as [|x r IH]; [intros []|]. intros [<-|H]; cbn; fold (nsumN f r); [lia|]. specialize (IH H). lia. Qed.

Lemma nsumN_mul {A} (f : A -> N) c l : nsumN (fun a => f a * c) l = nsumN f l * c.
Proof. induction l as [|x r IH]; cbn; [reflexivity|]. fold (nsumN (fun a => f a * c) r) (nsumN f r). lia. Qed.

(** * The greedy choice *)
Lemma greedy_fun {A} (av ln n : A -> N) (l : list A) : StronglySorted (fun a b => ln b <= ln a) l ->
  (forall a, In a l -> n a <= av a) -> forall cap, nsumN n l <= cap ->
  nsumN (fun a => n a * ln a) l <= i_len (greedy (map (fun a => (0%nat, av a, ln a)) l) cap) /\
  nsumN n l <= i_count (greedy (map (fun a => (0%nat, av a, ln a)) l) cap).
Proof.
  induction 1 as [|a r S IH FA]; intros Hn cap Hc; [cbn; lia|].
  cbn [map greedy savail slen fst snd]. cbn in Hc. fold (nsumN n r) in Hc. set (m := N.min (av a) cap).
  assert (Ha := Hn a (or_introl eq_refl)). assert (Hm : n a <= m) by (subst m; lia). assert (Hm2 : m <= cap) by (subst m; lia).
  destruct (IH (fun x Hx => Hn x (or_intror Hx)) (cap - n a)) as [I1 I2]; [lia|].
  set (G := map (fun a => (0%nat, av a, ln a)) r) in *.
  assert (M : i_len (greedy G ((cap - m) + (m - n a))) <= i_len (greedy G (cap - m)) + (m - n a) * ln a).
  { apply greedy_more. subst G. rewrite Forall_map. exact FA. }
  replace (cap - m + (m - n a)) with (cap - n a) in M by lia.
  cbn [iadd i_len i_count]. cbn [nsumN fold_right]. fold (nsumN (fun a => n a * ln a) r) (nsumN n r). split.
  - unfold savail, slen; cbn [fst snd]. fold m. nia.
  - unfold savail, slen; cbn [fst snd]. fold m.
    assert (C : i_count (greedy G (cap - n a)) <= i_count (greedy G (cap - m)) + (m - n a)).
    { replace (cap - n a) with ((cap - m) + (m - n a)) by lia. clear. generalize (cap - m) as k, (m - n a) as d. clearbody G. induction G as [|p r0 IH]; intros k d; [cbn; lia|].
      cbn [greedy iadd i_count]. set (u := N.min (savail p) (k + d)). set (v := N.min (savail p) k).
      replace (k + d - u) with ((k - v) + (k + d - u - (k - v))) by (subst u v; lia). specialize (IH (k - v) (k + d - u - (k - v))). subst u v. lia. }
    lia.
Qed.

Lemma filter_and {A} (p q : A -> bool) l : filter p (filter q l) = filter (fun a => q a && p a) l.
Proof. induction l as [|x r IH]; [reflexivity|]. cbn. destruct (q x); cbn; [destruct (p x); cbn; congruence|exact IH]. Qed.

Lemma filter_length_le {A} (p : A -> bool) l : (length (filter p l) <= length l)%nat.
Proof. induction l as [|x r IH]; cbn; [lia|]. destruct (p x); cbn; lia. Qed.

Lemma filter_length_imp {A} (p q : A -> bool) l : (forall a, In a l -> p a = true -> q a = true) -> (length (filter p l) <= length (filter q l))%nat.
Proof.
  induction l as [|x r IH]; intros H; cbn; [lia|]. specialize (IH (fun a Ha => H a (or_intror Ha))). specialize (H x (or_introl eq_refl)).
  destruct (p x); [rewrite (H eq_refl); cbn; lia|destruct (q x); cbn; lia].
Qed.

Lemma NoDup_app_intro {A} (a b : list A) : NoDup a -> NoDup b -> (forall x, In x a -> In x b -> False) -> NoDup (a ++ b).
Proof.
  induction 1 as [|x r NI ND IH]; intros Hb H; cbn; [exact Hb|]. constructor; [|apply IH; [exact Hb|intros y H1 H2; apply (H y); [right; exact H1|exact H2]]].
  rewrite in_app_iff. intros [X|X]; [contradiction|]. apply (H x); [left; reflexivity|exact X].
Qed.

(** instants in a set of distinct instants *)
Lemma instants_filter (p : Z -> bool) lo hi ts : NoDup ts -> (forall t, In t ts -> p t = true -> (lo <= t < hi)%Z) ->
  (Z.of_nat (length (filter p ts)) <= instants p lo hi)%Z.
Proof.
  intros ND H. unfold instants. apply Nat2Z.inj_le. apply NoDup_incl_length; [apply NoDup_filter; exact ND|].
  intros t Ht. apply filter_In in Ht. destruct Ht as [H1 H2]. apply filter_In. split; [apply in_zrange; apply H; assumption|exact H2].
Qed.

(** * Requests of the sources *)
Section Sources.
Context (info : list taskinfo) (rel comp : nat -> nat -> Z) (exec : nat -> creq -> Z -> bool) (tr : nat -> list creq).
Hypothesis W : wf_info info.
Hypothesis SJ : forall t, In t info -> sporadic_jobs (ti_period t) (ti_response t) (rel (ti_id t)) (comp (ti_id t)).
Hypothesis LR : forall r, lock_requests info rel comp r (exec r) (tr r).

Lemma info_id i t : nth_error info i = Some t -> ti_id t = i.
Proof. intros H. exact (proj1 (wf_nth info i t W H)). Qed.

Lemma info_nth t : In t info -> nth_error info (ti_id t) = Some t.
Proof. intros H. apply In_nth_error in H. destruct H as [i Hi]. rewrite (info_id i t Hi). exact Hi. Qed.

Lemma info_inj t u : In t info -> In u info -> ti_id t = ti_id u -> t = u.
Proof. intros H1 H2 E. apply info_nth in H1, H2. congruence. Qed.

Lemma in_all_requests l rb : In rb (all_requests l) <-> In (rb_task rb) l /\ In (rb_req rb) (ti_requests (rb_task rb)).
Proof.
  unfold all_requests. rewrite in_concat. split.
  - intros [x [H1 H2]]. apply in_map_iff in H1. destruct H1 as [t [<- Ht]]. apply in_map_iff in H2. destruct H2 as [q [<- Hq]]. split; assumption.
  - intros [H1 H2]. exists (map (RB (rb_task rb)) (ti_requests (rb_task rb))). split; [apply in_map_iff; exists (rb_task rb); auto|]. apply in_map_iff. exists (rb_req rb). destruct rb; auto.
Qed.

(** the source of a request *)
Lemma source r a : In a (tr r) -> exists rb, In rb (all_requests info) /\ ti_id (rb_task rb) = cr_task a /\ rb_res rb = r /\
  nth_error info (cr_task a) = Some (rb_task rb).
Proof.
  intros Ha. destruct (lr_spec _ _ _ _ _ _ (LR r) a Ha) as [t [q [H1 [H2 [H3 _]]]]]. exists (RB t q).
  assert (In t info) by (eapply nth_error_In; exact H1). split; [apply in_all_requests; split; assumption|]. cbn. split; [apply info_id; exact H1|]. split; [exact H3|exact H1].
Qed.

Lemma length_bound rb a : In rb (all_requests info) -> In a (tr (rb_res rb)) -> cr_task a = ti_id (rb_task rb) ->
  (instants (exec (rb_res rb) a) (cr_start a) (cr_end a) <= Z.of_N (rb_len rb))%Z.
Proof.
  intros Hrb Ha E. apply in_all_requests in Hrb. destruct Hrb as [H1 H2]. destruct (lr_spec _ _ _ _ _ _ (LR (rb_res rb)) a Ha) as [t [q [T1 [T2 [T3 T4]]]]].
  rewrite E, (info_nth _ H1) in T1. injection T1 as <-.
  assert (q = rb_req rb) as ->; [|exact T4]. destruct W as [_ W2]. destruct (W2 _ H1) as [_ ND].
  clear - ND H2 T2 T3. unfold rb_res in T3. induction (ti_requests (rb_task rb)) as [|x r IH]; [destruct H2|].
  cbn [map] in ND. inversion ND as [|y z NI ND']; subst. destruct H2 as [->|H2], T2 as [<-|T2]; [reflexivity| | |auto].
  - exfalso. apply NI. rewrite <- T3. apply in_map. exact T2.
  - exfalso. apply NI. rewrite T3. apply in_map. exact H2.
Qed.

(** the requests of a source that satisfy [hit] *)
Definition hits (hit : nat -> creq -> bool) (rb : rbound) : list creq :=
  filter (fun a => Nat.eqb (cr_task a) (ti_id (rb_task rb)) && hit (rb_res rb) a) (tr (rb_res rb)).
Definition nhits hit rb : N := N.of_nat (length (hits hit rb)).

Lemma in_hits hit rb a : In a (hits hit rb) <-> In a (tr (rb_res rb)) /\ cr_task a = ti_id (rb_task rb) /\ hit (rb_res rb) a = true.
Proof. unfold hits. rewrite filter_In, andb_true_iff, Nat.eqb_eq. reflexivity. Qed.

(** every instant is charged to a request that executes *)
Lemma charge (hit : nat -> creq -> bool) (cont : list rbound) ts :
  (forall r a t, In a (tr r) -> exec r a t = true -> (cr_start a <= t < cr_end a)%Z) ->
  (forall rb, In rb cont -> In rb (all_requests info)) -> NoDup ts ->
  (forall t, In t ts -> exists rb a, In rb cont /\ In a (hits hit rb) /\ exec (rb_res rb) a t = true) ->
  N.of_nat (length ts) <= nsumN (fun rb => nhits hit rb * rb_len rb) cont.
Proof.
  intros EX Hcont ND H. set (S := concat (map (fun rb => map (pair rb) (hits hit rb)) cont)).
  assert (C : (length ts <= nsum (fun p => length (filter (fun t => exec (rb_res (fst p)) (snd p) t) ts)) S)%nat).
  { apply (cover_count (fun p t => exec (rb_res (fst p)) (snd p) t)). intros t Ht. destruct (H t Ht) as [rb [a [H1 [H2 H3]]]]. exists (rb, a). split; [|exact H3].
    unfold S. apply in_concat. exists (map (pair rb) (hits hit rb)). split; [apply in_map_iff; exists rb; auto|apply in_map; exact H2]. }
  rewrite <- (Nat2N.id (nsum _ S)) in C. rewrite <- nsumN_nsum in C.
  assert (L : nsumN (fun p => N.of_nat (length (filter (fun t => exec (rb_res (fst p)) (snd p) t) ts))) S <= nsumN (fun rb => nhits hit rb * rb_len rb) cont); [|lia].
  unfold S. rewrite nsumN_concat, nsumN_map. apply nsumN_le. intros rb Hrb. rewrite nsumN_map. cbn [fst snd].
  apply N.le_trans with (nsumN (fun _ => rb_len rb) (hits hit rb)).
  - apply nsumN_le. intros a Ha. apply in_hits in Ha. destruct Ha as [A1 [A2 A3]].
    assert (B := length_bound rb a (Hcont rb Hrb) A1 A2). assert (D := instants_filter (exec (rb_res rb) a) (cr_start a) (cr_end a) ts ND (fun t _ E => EX _ _ _ A1 E)). cbv beta. change (filter (fun t => exec (rb_res rb) a t) ts) with (filter (exec (rb_res rb) a) ts). lia.
  - unfold nhits. induction (hits hit rb) as [|x l IH]; [cbn; lia|]. cbn [length nsumN fold_right]. fold (nsumN (fun _ : creq => rb_len rb) l). rewrite Nat2N.inj_succ. lia.
Qed.

(** requests that overlap the window of a job *)
Lemma window_number hit rb tsk k : In rb (all_requests info) -> In tsk info ->
  (forall a, In a (hits hit rb) -> exists t, (cr_issue a <= t < cr_end a /\ rel (ti_id tsk) k <= t < comp (ti_id tsk) k)%Z) ->
  nhits hit rb <= get_max_num_requests rb (ti_response tsk).
Proof.
  intros Hrb Ht H. unfold nhits, get_max_num_requests, get_max_num_jobs. pose proof Hrb as Hrb'. apply in_all_requests in Hrb'. destruct Hrb' as [H1 H2]. destruct W as [_ W2]. destruct (W2 _ H1) as [Hp _].
  set (x := rb_task rb) in *. destruct (SJ x H1) as [S1 S2]. destruct (SJ tsk Ht) as [_ S3].
  apply (requests_bound (rel (ti_id x)) (ti_period x) Hp S1 (ti_id x) _ _ (rel (ti_id tsk) k - Z.of_N (ti_response x))%Z).
  - intros a Ha. pose proof Ha as Ha'. apply in_hits in Ha'. destruct Ha' as [A1 [A2 _]]. split; [exact A2|].
    destruct (H a Ha) as [t [T1 T2]]. destruct (lr_job _ _ _ _ _ _ (LR (rb_res rb)) a A1) as [J1 J2]. rewrite A2 in J1, J2. fold x in J1, J2.
    specialize (S2 (cr_job a)). specialize (S3 k). lia.
  - intros j. unfold hits. rewrite filter_and. eapply N.le_trans; [|apply (lr_number _ _ _ _ _ _ (LR (rb_res rb)) (ti_id x) j x (rb_req rb)); [apply info_nth; exact H1|exact H2|reflexivity]].
    enough (length (filter (fun a => Nat.eqb (cr_task a) (ti_id x) && hit (rb_res rb) a && is_job (ti_id x) j a) (tr (rb_res rb))) <= length (filter (is_job (ti_id x) j) (tr (rb_res rb))))%nat by (unfold x in *; lia).
    apply filter_length_imp. intros a _ E. apply andb_true_iff in E. apply E.
Qed.
End Sources.
