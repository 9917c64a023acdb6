(** Counting instants, jobs and requests. *)
From Coq Require Import NArith ZArith List Bool Lia Arith.
From Verif Require Import ModelLocking SpecLocking SpecSpinFP.
Import ListNotations.
Open Scope Z_scope.

(** * Instants *)
Lemma count_app p : forall n a m, count p a (n + m) = (count p a n + count p (a + Z.of_nat n) m)%nat.
Proof.
  induction n as [|n IH]; intros a m; cbn [count Nat.add].
  - replace (a + Z.of_nat 0) with a by lia. reflexivity.
  - rewrite IH. replace (a + Z.of_nat (S n)) with (a + 1 + Z.of_nat n) by lia. lia.
Qed.

Lemma count_ext p q : forall n a, (forall t, a <= t < a + Z.of_nat n -> p t = q t) -> count p a n = count q a n.
Proof.
  induction n as [|n IH]; intros a H; cbn [count]; [reflexivity|]. rewrite (H a) by lia. rewrite (IH (a + 1)); [reflexivity|]. intros t Ht. apply H. lia.
Qed.

Lemma count_false p n a : (forall t, a <= t < a + Z.of_nat n -> p t = false) -> count p a n = 0%nat.
Proof. intros H. rewrite (count_ext p (fun _ => false)) by exact H. clear. revert a; induction n as [|n IH]; intros a; cbn; [reflexivity|apply IH]. Qed.

Lemma count_le_n p : forall n a, (count p a n <= n)%nat.
Proof. induction n as [|n IH]; intros a; cbn [count]; [lia|]. specialize (IH (a + 1)). destruct (p a); lia. Qed.

Lemma count_le p q : forall n a, (forall t, a <= t < a + Z.of_nat n -> p t = true -> q t = true) -> (count p a n <= count q a n)%nat.
Proof.
  induction n as [|n IH]; intros a H; cbn [count]; [lia|]. assert (IH' := IH (a + 1) (fun t Ht => H t ltac:(lia))). specialize (H a ltac:(lia)).
  destruct (p a); [rewrite H by reflexivity; lia|destruct (q a); lia].
Qed.

Lemma count_pos p : forall n a, (0 < count p a n)%nat -> exists t, a <= t < a + Z.of_nat n /\ p t = true.
Proof.
  induction n as [|n IH]; intros a H; cbn [count] in H; [lia|]. destruct (p a) eqn:P; [exists a; split; [lia|exact P]|].
  destruct (IH (a + 1) H) as [t [Ht Hp]]. exists t. split; [lia|exact Hp].
Qed.

Lemma count_one p n a t : a <= t < a + Z.of_nat n -> p t = true -> (0 < count p a n)%nat.
Proof.
  intros H P. replace n with (Z.to_nat (t - a) + (1 + (n - Z.to_nat (t - a) - 1)))%nat by lia. rewrite count_app. cbn [count Nat.add].
  replace (a + Z.of_nat (Z.to_nat (t - a))) with t by lia. rewrite P. lia.
Qed.

(** disjoint conditions *)
Lemma count_disjoint p q r : forall n a, (forall t, a <= t < a + Z.of_nat n -> p t = true -> q t = true -> False) ->
  (forall t, a <= t < a + Z.of_nat n -> p t = true \/ q t = true -> r t = true) -> (count p a n + count q a n <= count r a n)%nat.
Proof.
  induction n as [|n IH]; intros a H1 H2; cbn [count]; [lia|].
  assert (IH' := IH (a + 1) (fun t Ht => H1 t ltac:(lia)) (fun t Ht => H2 t ltac:(lia))). specialize (H1 a ltac:(lia)). specialize (H2 a ltac:(lia)).
  destruct (p a), (q a); [exfalso; auto|rewrite H2 by auto; lia|rewrite H2 by auto; lia|destruct (r a); lia].
Qed.

Lemma count_split p : forall n a, (count p a n + count (fun t => negb (p t)) a n = n)%nat.
Proof. induction n as [|n IH]; intros a; cbn [count]; [reflexivity|]. specialize (IH (a + 1)). destruct (p a); cbn [negb]; lia. Qed.

Definition nsum {A} (f : A -> nat) (l : list A) : nat := fold_right (fun a s => (f a + s)%nat) O l.

Lemma nsum_app {A} (f : A -> nat) a b : nsum f (a ++ b) = (nsum f a + nsum f b)%nat.
Proof. induction a as [|x r IH]; cbn; [reflexivity|]. fold (nsum f (r ++ b)). rewrite IH. fold (nsum f r). lia. Qed.

Lemma nsum_le {A} (f g : A -> nat) l : (forall a, In a l -> (f a <= g a)%nat) -> (nsum f l <= nsum g l)%nat.
Proof. induction l as [|x r IH]; intros H; cbn; [lia|]. specialize (IH (fun a Ha => H a (or_intror Ha))). specialize (H x (or_introl eq_refl)). fold (nsum f r) (nsum g r). lia. Qed.

Lemma nsum_plus {A} (f g : A -> nat) l : nsum (fun a => (f a + g a)%nat) l = (nsum f l + nsum g l)%nat.
Proof. induction l as [|x r IH]; cbn; [reflexivity|]. fold (nsum (fun a => (f a + g a)%nat) r) (nsum f r) (nsum g r). lia. Qed.

(** instants covered by conditions *)
Lemma count_cover {A} (p : Z -> bool) (f : A -> Z -> bool) (l : list A) : forall n a,
  (forall t, a <= t < a + Z.of_nat n -> p t = true -> exists x, In x l /\ f x t = true) -> (count p a n <= nsum (fun x => count (f x) a n) l)%nat.
Proof.
  induction n as [|n IH]; intros a H; cbn [count]; [lia|]. assert (IH' := IH (a + 1) (fun t Ht => H t ltac:(lia))). specialize (H a ltac:(lia)).
  rewrite nsum_plus. destruct (p a); [|lia]. destruct (H eq_refl) as [x [H1 H2]].
  assert (G : forall l, In x l -> (1 <= nsum (fun x => if f x a then 1 else 0) l)%nat).
  { clear - H2. induction l as [|y r IHl]; intros H; [destruct H|]. cbn. fold (nsum (fun x => if f x a then 1%nat else 0%nat) r). destruct H as [->|H]; [rewrite H2; lia|]. specialize (IHl H). destruct (f y a); lia. }
  specialize (G l H1). lia.
Qed.

(** a condition that holds only in [s, e) *)
Lemma count_window p a n s e : s <= e -> (forall t, a <= t < a + Z.of_nat n -> p t = true -> s <= t < e) -> (count p a n <= count p s (Z.to_nat (e - s)))%nat.
Proof.
  intros Hse H. set (lo := Z.min a s). set (hi := Z.max (a + Z.of_nat n) e).
  set (q := fun t => p t && ((a <=? t) && (t <? a + Z.of_nat n))).
  assert (E1 : count p a n = count q a n). { apply count_ext. intros t Ht. unfold q. destruct (Z.leb_spec a t); [|lia]. destruct (Z.ltb_spec t (a + Z.of_nat n)); [|lia]. destruct (p t); reflexivity. }
  assert (E2 : count q a n = count q lo (Z.to_nat (hi - lo))).
  { replace (Z.to_nat (hi - lo)) with (Z.to_nat (a - lo) + (n + Z.to_nat (hi - (a + Z.of_nat n))))%nat by lia. rewrite !count_app.
    rewrite (count_false q (Z.to_nat (a - lo)) lo). 2:{ intros t Ht. unfold q. destruct (Z.leb_spec a t); [lia|]. destruct (p t); reflexivity. }
    replace (lo + Z.of_nat (Z.to_nat (a - lo))) with a by lia.
    rewrite (count_false q _ (a + Z.of_nat n)). 2:{ intros t Ht. unfold q. destruct (Z.ltb_spec t (a + Z.of_nat n)); [lia|]. destruct (p t), (a <=? t); reflexivity. } lia. }
  assert (E3 : count q lo (Z.to_nat (hi - lo)) = count q s (Z.to_nat (e - s))).
  { assert (Q : forall t, q t = true -> s <= t < e).
    { intros t Ht. unfold q in Ht. apply andb_true_iff in Ht. destruct Ht as [Ht1 Ht2]. apply andb_true_iff in Ht2. destruct Ht2 as [Ht2 Ht3]. apply Z.leb_le in Ht2. apply Z.ltb_lt in Ht3. apply H; [lia|exact Ht1]. }
    replace (Z.to_nat (hi - lo)) with (Z.to_nat (s - lo) + (Z.to_nat (e - s) + Z.to_nat (hi - e)))%nat by lia. rewrite !count_app.
    rewrite (count_false q (Z.to_nat (s - lo)) lo). 2:{ intros t Ht. destruct (q t) eqn:E; [|reflexivity]. apply Q in E. lia. }
    replace (lo + Z.of_nat (Z.to_nat (s - lo))) with s by lia. replace (s + Z.of_nat (Z.to_nat (e - s))) with e by lia.
    rewrite (count_false q _ e). 2:{ intros t Ht. destruct (q t) eqn:E; [|reflexivity]. apply Q in E. lia. } lia. }
  rewrite E1, E2, E3. apply count_le. intros t _ Ht. unfold q in Ht. apply andb_true_iff in Ht. apply Ht.
Qed.

(** * Relations between lists *)
Lemma rel_inj {A B} (R : A -> B -> Prop) : forall (D : list A) (W : list B), NoDup D -> (forall a, In a D -> exists b, In b W /\ R a b) ->
  (forall a a' b, In a D -> In a' D -> In b W -> R a b -> R a' b -> a = a') -> (length D <= length W)%nat.
Proof.
  induction D as [|a D IH]; intros W ND H1 H2; cbn [length]; [lia|]. inversion ND as [|x y NI ND']; subst.
  destruct (H1 a (or_introl eq_refl)) as [b [Hb Rb]]. apply in_split in Hb. destruct Hb as [W1 [W2 ->]].
  assert (L : (length D <= length (W1 ++ W2))%nat).
  { apply IH; [exact ND'| |].
    - intros a' Ha'. destruct (H1 a' (or_intror Ha')) as [b' [Hb' Rb']]. exists b'. split; [|exact Rb'].
      apply in_app_or in Hb'. destruct Hb' as [Hb'|[<-|Hb']]; [apply in_or_app; left; exact Hb'| |apply in_or_app; right; exact Hb'].
      exfalso. apply NI. replace a with a'; [exact Ha'|]. apply (H2 a' a b); [right; exact Ha'|left; reflexivity|apply in_or_app; right; left; reflexivity|exact Rb'|exact Rb].
    - intros a1 a2 b' I1 I2 Ib. apply H2; [right; exact I1|right; exact I2|]. apply in_app_or in Ib. apply in_or_app. destruct Ib as [Ib|Ib]; [left|right; right]; exact Ib. }
  rewrite app_length in *. cbn [length]. lia.
Qed.

Lemma cover_count {A B} (p : B -> A -> bool) (l : list A) (s : list B) : (forall a, In a l -> exists b, In b s /\ p b a = true) -> (length l <= nsum (fun b => length (filter (p b) l)) s)%nat.
Proof.
  induction l as [|a l IH]; intros H; cbn [length]; [lia|].
  assert (IH' := IH (fun x Hx => H x (or_intror Hx))). destruct (H a (or_introl eq_refl)) as [b [H1 H2]].
  assert (G : (nsum (fun b => length (filter (p b) (a :: l))) s = nsum (fun b => (if p b a then 1 else 0) + length (filter (p b) l)) s)%nat).
  { clear. induction s as [|b s IH]; cbn [nsum fold_right]; [reflexivity|]. fold (nsum (fun b => length (filter (p b) (a :: l))) s) (nsum (fun b => ((if p b a then 1 else 0) + length (filter (p b) l))%nat) s). rewrite IH. cbn [filter]. destruct (p b a); reflexivity. }
  rewrite G, nsum_plus.
  assert (K : forall s, In b s -> (1 <= nsum (fun b => if p b a then 1 else 0) s)%nat).
  { clear - H2. induction s as [|y r IHl]; intros H; [destruct H|]. cbn. fold (nsum (fun b => if p b a then 1%nat else 0%nat) r). destruct H as [->|H]; [rewrite H2; lia|]. specialize (IHl H). destruct (p y a); lia. }
  specialize (K s H1). lia.
Qed.

Lemma nodup_concat {A B} (key : A -> nat) (f : B -> nat) (L : B -> list A) rs : NoDup (map f rs) -> (forall r, In r rs -> NoDup (L r)) ->
  (forall r a, In r rs -> In a (L r) -> key a = f r) -> NoDup (concat (map L rs)).
Proof.
  induction rs as [|r rs IH]; intros H1 H2 H3; cbn; [constructor|]. cbn in H1. inversion H1 as [|x y NI ND]; subst.
  assert (IH' := IH ND (fun r0 H => H2 r0 (or_intror H)) (fun r0 a H => H3 r0 a (or_intror H))). clear IH.
  assert (G : forall l, NoDup l -> (forall a, In a l -> key a = f r) -> NoDup (l ++ concat (map L rs))).
  { induction l as [|a l IHl]; intros N K; cbn; [exact IH'|]. inversion N as [|x y NI' ND']; subst. constructor; [|apply IHl; [exact ND'|intros; apply K; right; assumption]].
    rewrite in_app_iff. intros [X|X]; [contradiction|]. apply in_concat in X. destruct X as [l' [X1 X2]]. apply in_map_iff in X1. destruct X1 as [r' [<- X1]].
    apply NI. rewrite <- (K a (or_introl eq_refl)), (H3 r' a (or_intror X1) X2). apply in_map. exact X1. }
  apply G; [apply H2; left; reflexivity|]. intros a Ha. apply (H3 r a (or_introl eq_refl) Ha).
Qed.

(** * Jobs and requests of a sporadic task *)
Lemma divide_with_ceil_spec a b : (0 < b)%N -> forall k : N, (k < divide_with_ceil a b <-> k * b < a)%N.
Proof.
  intros Hb k. unfold divide_with_ceil. pose proof (N.div_mod a b ltac:(lia)) as E. pose proof (N.mod_lt a b ltac:(lia)) as L.
  set (d := (a / b)%N) in *. set (r := (a mod b)%N) in *. clearbody d r. destruct (N.eqb_spec r 0) as [R|R]; subst a; split; intros H; nia.
Qed.

Lemma list_min (l : list nat) : l <> [] -> exists k, In k l /\ forall x, In x l -> (k <= x)%nat.
Proof.
  induction l as [|a r IH]; intros H; [congruence|]. destruct r as [|b r].
  - exists a. split; [left; reflexivity|]. intros x [<-|[]]. lia.
  - destruct (IH ltac:(discriminate)) as [k [H1 H2]]. destruct (le_lt_dec a k) as [L|L].
    + exists a. split; [left; reflexivity|]. intros x [<-|Hx]; [lia|]. specialize (H2 x Hx). lia.
    + exists k. split; [right; exact H1|]. intros x [<-|Hx]; [lia|auto].
Qed.

Section Sporadic.
Variable rel : nat -> Z.
Variable T : N.
Hypothesis HT : (0 < T)%N.
Hypothesis Hrel : forall k, rel k + Z.of_N T <= rel (S k).

Lemma rel_spacing k m : rel k + Z.of_nat m * Z.of_N T <= rel (k + m)%nat.
Proof. induction m as [|m IH]; [replace (k + 0)%nat with k by lia; lia|]. replace (k + S m)%nat with (S (k + m)) by lia. specialize (Hrel (k + m)%nat). nia. Qed.

Lemma jobs_bound ks lo (D : N) : NoDup ks -> (forall k, In k ks -> lo <= rel k < lo + Z.of_N D) -> (N.of_nat (length ks) <= divide_with_ceil D T)%N.
Proof.
  intros ND H. destruct ks as [|k1 ks1]; [cbn; lia|]. set (ks := k1 :: ks1) in *. destruct (list_min ks ltac:(discriminate)) as [k0 [M1 M2]].
  assert (B : forall k, In k ks -> (N.of_nat (k - k0) < divide_with_ceil D T)%N).
  { intros k Hk. apply divide_with_ceil_spec; [exact HT|]. specialize (M2 k Hk). pose proof (rel_spacing k0 (k - k0)) as S. replace (k0 + (k - k0))%nat with k in S by lia.
    pose proof (H k Hk). pose proof (H k0 M1). nia. }
  set (m := N.to_nat (divide_with_ceil D T)).
  assert (I : incl ks (seq k0 m)). { intros k Hk. specialize (B k Hk). specialize (M2 k Hk). apply in_seq. unfold m. lia. }
  pose proof (NoDup_incl_length ND I) as L. rewrite seq_length in L. unfold m in L. lia.
Qed.

Lemma requests_bound (x : nat) (n : N) (l : list creq) lo (D : N) :
  (forall a, In a l -> cr_task a = x /\ lo <= rel (cr_job a) < lo + Z.of_N D) ->
  (forall k, (N.of_nat (length (filter (is_job x k) l)) <= n)%N) -> (N.of_nat (length l) <= divide_with_ceil D T * n)%N.
Proof.
  intros H1 H2. set (ks := nodup Nat.eq_dec (map cr_job l)).
  assert (J : (N.of_nat (length ks) <= divide_with_ceil D T)%N).
  { apply jobs_bound with (lo := lo); [apply NoDup_nodup|]. intros k Hk. unfold ks in Hk. apply nodup_In, in_map_iff in Hk. destruct Hk as [a [<- Ha]]. apply (H1 a Ha). }
  assert (C : (length l <= nsum (fun k => length (filter (is_job x k) l)) ks)%nat).
  { apply cover_count. intros a Ha. exists (cr_job a). split; [unfold ks; apply nodup_In, in_map; exact Ha|]. unfold is_job. rewrite (proj1 (H1 a Ha)), !Nat.eqb_refl. reflexivity. }
  assert (S : (nsum (fun k => length (filter (is_job x k) l)) ks <= length ks * N.to_nat n)%nat).
  { clear - H2. induction ks as [|k r IH]; cbn; [lia|]. fold (nsum (fun k => length (filter (is_job x k) l)) r). specialize (H2 k). lia. }
  nia.
Qed.
End Sporadic.
