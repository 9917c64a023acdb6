(** The iterators over the points at which the demand changes (baruah.cpp, la.cpp). *)
From Coq Require Import ZArith QArith List Bool Lia.
From Verif Require Import Base ModelTasks ModelNative ModelGEDF ModelGEDFNative ModelLA.
Import ListNotations.
Open Scope Z_scope.

(** [a] is still to come *)
Definition ahead (q : list dpt) (a : Z) : Prop := exists c pi, In (c, pi) q /\ exists j, 0 <= j /\ a = c + j * pi.

Definition qok (q : list dpt) : Prop := q <> [] /\ Forall (fun p => 0 < snd p) q.

Lemma dq_top_spec : forall q, q <> [] -> exists t, dq_top q = Some t /\ (exists pi, In (t, pi) q) /\ Forall (fun p => t <= fst p) q.
Proof.
  induction q as [|[c pi] q IH]; [congruence|]. intros _. cbn [dq_top]. destruct q as [|p q].
  - cbn. exists c. split; [reflexivity|]. split; [exists pi; left; reflexivity|]. constructor; [cbn; lia|constructor].
  - destruct IH as [t [E [[pi' Hin] Hall]]]; [congruence|]. rewrite E. cbn [fst]. exists (Z.min c t). split; [reflexivity|]. split.
    + destruct (Z.min_spec c t) as [[_ ->]|[_ ->]]; [exists pi; left; reflexivity|exists pi'; right; assumption].
    + constructor; [cbn; lia|]. eapply Forall_impl; [|exact Hall]. cbn. intros; lia.
Qed.

Lemma dq_bump_Forall : forall x q, Forall (fun p => 0 < snd p) q -> Forall (fun p : dpt => 0 < snd p) (dq_bump x q).
Proof.
  intros x q H. induction H as [|[c pi] q H Hq IH]; [constructor|]. cbn in *. destruct (Z.eqb_spec c x); constructor; cbn; auto.
Qed.

Lemma dq_bump_length : forall x q, length (dq_bump x q) = length q.
Proof. intros x q. induction q as [|[c pi] q IH]; [reflexivity|]. cbn. destruct (c =? x); cbn; congruence. Qed.

Lemma dq_bump_ok : forall x q, qok q -> qok (dq_bump x q).
Proof.
  intros x q [H1 H2]. split; [|apply dq_bump_Forall; assumption].
  intros E. apply H1. apply (f_equal (@length dpt)) in E. rewrite dq_bump_length in E. destruct q; [reflexivity|discriminate].
Qed.

(** points of the queue, before and after *)
Lemma dq_bump_ahead : forall x q a, ahead q a -> a = x \/ ahead (dq_bump x q) a.
Proof.
  intros x q a [c [pi [Hin [j [Hj E]]]]]. revert Hin. induction q as [|[c0 pi0] q IH]; intros Hin; [destruct Hin|]. cbn [dq_bump fst snd].
  destruct (Z.eqb_spec c0 x) as [->|N].
  - destruct Hin as [Hin|Hin].
    + injection Hin as -> ->. destruct (Z.eq_dec j 0) as [->|Nj]; [left; lia|right]. exists (c + pi), pi. split; [left; reflexivity|]. exists (j - 1). split; [lia|]. rewrite E. ring.
    + right. exists c, pi. split; [right; assumption|]. exists j. split; assumption.
  - destruct Hin as [Hin|Hin].
    + injection Hin as -> ->. right. exists c, pi. split; [left; reflexivity|]. exists j. split; assumption.
    + destruct (IH Hin) as [G|[c1 [pi1 [G1 G2]]]]; [left; assumption|right]. exists c1, pi1. split; [right; assumption|exact G2].
Qed.

Lemma dq_bump_ahead_inv : forall x q a, Forall (fun p => 0 < snd p) q -> ahead (dq_bump x q) a -> ahead q a.
Proof.
  intros x q a Hp [c [pi [Hin [j [Hj E]]]]]. revert Hin. induction Hp as [|[c0 pi0] q H Hq IH]; intros Hin; [destruct Hin|]. cbn [dq_bump fst snd] in Hin.
  destruct (Z.eqb_spec c0 x) as [->|N].
  - destruct Hin as [Hin|Hin].
    + injection Hin as <- <-. exists x, pi0. split; [left; reflexivity|]. exists (j + 1). split; [lia|]. rewrite E. ring.
    + exists c, pi. split; [right; assumption|]. exists j. split; assumption.
  - destruct Hin as [Hin|Hin].
    + injection Hin as <- <-. exists c0, pi0. split; [left; reflexivity|]. exists j. split; assumption.
    + destruct (IH Hin) as [c1 [pi1 [G1 G2]]]. exists c1, pi1. split; [right; assumption|exact G2].
Qed.

Lemma ahead_top : forall q t a, Forall (fun p => 0 < snd p) q -> Forall (fun p => t <= fst p) q -> ahead q a -> t <= a.
Proof.
  intros q t a Hp Ht [c [pi [Hin [j [Hj E]]]]]. rewrite Forall_forall in Hp, Ht. specialize (Hp _ Hin). specialize (Ht _ Hin). cbn in *. nia.
Qed.

(** number of elements at x *)
Definition at_point (x : Z) (q : list dpt) : nat := length (filter (fun p => fst p =? x) q).

Lemma dq_bump_count : forall x q, Forall (fun p => 0 < snd p) q -> (exists pi, In (x, pi) q) -> S (at_point x (dq_bump x q)) = at_point x q.
Proof.
  intros x q Hp [pi Hin]. induction Hp as [|[c0 pi0] q H Hq IH]; [destruct Hin|]. cbn [snd] in H. unfold at_point in *. cbn [dq_bump fst snd filter].
  destruct (Z.eqb_spec c0 x) as [->|N].
  - cbn [filter fst]. destruct (Z.eqb_spec (x + pi0) x); [lia|]. reflexivity.
  - cbn [filter fst]. destruct (Z.eqb_spec c0 x); [congruence|]. apply IH. destruct Hin as [E|Hin]; [injection E as -> _; congruence|assumption].
Qed.

Lemma at_point_le : forall x q, (at_point x q <= length q)%nat.
Proof. intros. unfold at_point. induction q as [|p q IH]; [cbn; lia|]. cbn. destruct (fst p =? x); cbn; lia. Qed.

Lemma dq_next_spec : forall fuel q last, qok q -> (at_point last q < fuel)%nat -> (forall a, ahead q a -> last <= a) ->
  exists t q', dq_next fuel q last = Some (t, q') /\ qok q' /\ length q' = length q /\ last < t /\ (forall a, ahead q' a -> t <= a) /\ ahead q t /\
    (forall a, ahead q' a -> ahead q a) /\
    forall a, ahead q a -> a = last \/ a = t \/ ahead q' a.
Proof.
  induction fuel as [|f IH]; intros q last Hq Hf Hl; [lia|]. cbn [dq_next]. destruct Hq as [Q1 Q2].
  destruct (dq_top_spec q Q1) as [t [E [Hin Hall]]]. rewrite E.
  assert (At : ahead q t) by (destruct Hin as [pi Hin]; exists t, pi; split; [assumption|]; exists 0; split; [lia|ring]).
  destruct (Z.eqb_spec t last) as [->|N].
  - pose proof (dq_bump_count last q Q2 Hin) as Hc.
    destruct (IH (dq_bump last q) last (dq_bump_ok last q (conj Q1 Q2))) as [t' [q' [E' [K0 [K1 [K2 [K3 [K4 [K6 K5]]]]]]]]].
    + lia.
    + intros a Ha. apply Hl. eapply dq_bump_ahead_inv; eassumption.
    + exists t', q'. split; [assumption|]. split; [assumption|]. split; [rewrite K1; apply dq_bump_length|]. split; [assumption|]. split; [assumption|].
      split; [eapply dq_bump_ahead_inv; eassumption|]. split; [intros a Ha; eapply dq_bump_ahead_inv; [exact Q2|apply K6; assumption]|].
      intros a Ha. destruct (dq_bump_ahead last q a Ha) as [->|G]; [left; reflexivity|apply K5; assumption].
  - exists t, (dq_bump t q). split; [reflexivity|]. split; [apply dq_bump_ok; split; assumption|]. split; [apply dq_bump_length|].
    split; [specialize (Hl t At); lia|]. split; [intros a Ha; apply (ahead_top q t a Q2 Hall); eapply dq_bump_ahead_inv; eassumption|]. split; [assumption|].
    split; [intros a Ha; eapply dq_bump_ahead_inv; eassumption|].
    intros a Ha. right. destruct (dq_bump_ahead t q a Ha); [left|right]; assumption.
Qed.

(** invariant of the iterators *)
Definition pok (p : points) : Prop := qok (p_queue p) /\ forall a, ahead (p_queue p) a -> p_last p <= a.

Lemma get_next_spec : forall p, pok p -> exists r p', get_next p = Some (r, p') /\ pok p' /\ p_bound p' = p_bound p /\
  (forall a, ahead (p_queue p') a -> ahead (p_queue p) a) /\
  match r with
  | Some t => t <= p_bound p /\ p_last p < t /\ p_last p' = t /\ ahead (p_queue p) t /\ forall a, ahead (p_queue p) a -> a = p_last p \/ a = t \/ ahead (p_queue p') a
  | None => (forall a, ahead (p_queue p) a -> a = p_last p \/ p_bound p < a) /\ (p_bound p < p_last p')
  end.
Proof.
  intros p [P1 P2]. unfold get_next. destruct (Z.ltb_spec (p_bound p) (p_last p)) as [L|L].
  - exists None, p. split; [reflexivity|]. split; [split; assumption|]. split; [reflexivity|]. split; [auto|]. split; [|assumption].
    intros a Ha. right. specialize (P2 a Ha). lia.
  - destruct (dq_next_spec (S (length (p_queue p))) (p_queue p) (p_last p) P1) as [t [q' [E [K0 [K1 [K2 [K3 [K4 [K6 K5]]]]]]]]].
    { pose proof (at_point_le (p_last p) (p_queue p)). lia. }
    { exact P2. }
    rewrite E. exists (if t <=? p_bound p then Some t else None), (Points q' t (p_bound p)). split; [reflexivity|].
    split; [split; [exact K0|exact K3]|]. split; [reflexivity|]. split; [exact K6|]. destruct (Z.leb_spec t (p_bound p)) as [T|T]; cbn.
    + split; [assumption|]. split; [assumption|]. split; [reflexivity|]. split; assumption.
    + split; [|lia]. intros a Ha. destruct (K5 a Ha) as [->|[->|G]]; [left; reflexivity|right; lia|right]. specialize (K3 a G). lia.
Qed.

(** all points up to the bound are checked *)
Lemma la_points_true : forall fuel slow check iter p, pok p -> (forall a, ahead (p_queue p) a -> a = p_last p -> a <= p_bound p -> check a = true) ->
  la_points fuel slow check iter p = Some true -> forall a, ahead (p_queue p) a -> a <= p_bound p -> check a = true.
Proof.
  induction fuel as [|f IH]; intros slow check iter p Hp Hlast H a Ha Hb; [discriminate|]. cbn [la_points] in H.
  destruct (get_next_spec p Hp) as [r [p' [E [K1 [K2 [K0 K3]]]]]]. rewrite E in H. destruct r as [t|].
  - destruct (_ && _); [discriminate|]. destruct (check t) eqn:Ct; [|discriminate]. destruct K3 as [K4 [K5 [K6 [K8 K7]]]].
    destruct (K7 a Ha) as [Ea|[Ea|Ha']]; [apply Hlast; assumption|congruence|].
    apply (IH slow check (S iter) p' K1); [|exact H|assumption|lia]. intros b _ Eb _. rewrite Eb, K6. exact Ct.
  - destruct K3 as [K4 _]. destruct (K4 a Ha) as [Ea|Gt]; [apply Hlast; assumption|lia].
Qed.

Lemma la_points_fuel : forall fuel slow check iter p, pok p -> (Z.to_nat (p_bound p - p_last p) < fuel)%nat -> la_points fuel slow check iter p <> None.
Proof.
  induction fuel as [|f IH]; intros slow check iter p Hp Hf; [lia|]. cbn [la_points].
  destruct (get_next_spec p Hp) as [r [p' [E [K1 [K2 [K0 K3]]]]]]. rewrite E. destruct r as [t|]; [|discriminate].
  destruct (_ && _); [discriminate|]. destruct (check t); [|discriminate]. destruct K3 as [K4 [K5 [K6 _]]]. apply IH; [assumption|]. lia.
Qed.

(** the initial state *)
Lemma points_init_ok : forall ts tk b, ts <> [] -> Forall (fun t => 0 < n_period t) ts -> pok (points_init ts tk b).
Proof.
  intros ts tk b Hn Hp. split; [split|]; cbn [points_init p_queue p_last].
  - destruct ts; [congruence|discriminate].
  - rewrite Forall_map. eapply Forall_impl; [|exact Hp]. cbn. auto.
  - intros a [c [pi [Hin [j [Hj E]]]]]. apply in_map_iff in Hin. destruct Hin as [t [Et Ht]]. rewrite Forall_forall in Hp. specialize (Hp t Ht).
    unfold dpt_init in Et. injection Et as <- <-.
    assert (0 <= (if n_deadline t - n_deadline tk <? 0 then (n_deadline t - n_deadline tk) mod n_period t else n_deadline t - n_deadline tk)).
    { destruct (Z.ltb_spec (n_deadline t - n_deadline tk) 0); [apply Z.mod_pos_bound; assumption|assumption]. }
    nia.
Qed.

Lemma points_init_ahead : forall ts tk b t j, In t ts -> Forall (fun t => 0 < n_period t) ts -> 0 <= n_deadline t - n_deadline tk + j * n_period t -> 0 <= j ->
  ahead (p_queue (points_init ts tk b)) (n_deadline t - n_deadline tk + j * n_period t).
Proof.
  intros ts tk b t j Ht Hp Ha Hj. rewrite Forall_forall in Hp. specialize (Hp t Ht). cbn [points_init p_queue].
  exists (fst (dpt_init t tk)), (snd (dpt_init t tk)). split; [apply in_map_iff; exists t; split; [symmetry; apply surjective_pairing|assumption]|].
  unfold dpt_init. cbn [fst snd]. set (x := n_deadline t - n_deadline tk) in *. destruct (Z.ltb_spec x 0) as [L|L].
  - pose proof (Z.div_mod x (n_period t) ltac:(lia)) as E. pose proof (Z.mod_pos_bound x (n_period t) Hp). exists (j + x / n_period t). split; [nia|lia].
  - exists j. split; [assumption|reflexivity].
Qed.
