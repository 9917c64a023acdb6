(** Generic definitions and lemmas shared by all areas: sums over lists and
    over initial segments of [nat], exact ceiling division, small list facts.
    Nothing here models code of /repo except [cdiv], the exact value of
    Python's [int(ceil(a / b))] (used e.g. at schedcat/sched/fp/rta.py:40)
    and of [divide_with_ceil] (native/include/math-helper.h:6-14). *)
From Coq Require Import ZArith List Lia Bool Permutation Sorted.
Import ListNotations.
Open Scope Z_scope.

Ltac inv H := inversion H; subst; clear H.

(** ** Ceiling division *)
Definition cdiv (a b : Z) : Z := - ((- a) / b).

Lemma cdiv_spec : forall a b, 0 < b -> b * (cdiv a b - 1) < a <= b * cdiv a b.
Proof.
  intros a b Hb. unfold cdiv.
  pose proof (Z.div_mod (- a) b ltac:(lia)) as H.
  pose proof (Z.mod_pos_bound (- a) b Hb) as H0. nia.
Qed.

Lemma cdiv_unique : forall a b q, 0 < b -> b * (q - 1) < a <= b * q -> cdiv a b = q.
Proof. intros a b q Hb Hq. pose proof (cdiv_spec a b Hb). nia. Qed.

Lemma cdiv_le : forall a b c, 0 < b -> a <= c -> cdiv a b <= cdiv c b.
Proof. intros a b c Hb H. pose proof (cdiv_spec a b Hb). pose proof (cdiv_spec c b Hb). nia. Qed.

Lemma cdiv_le_den : forall a b c, 0 < b -> b <= c -> 0 <= a -> cdiv a c <= cdiv a b.
Proof.
  intros a b c Hb H Ha. pose proof (cdiv_spec a b Hb) as H1.
  assert (0 <= cdiv a b) by nia. pose proof (cdiv_spec a c ltac:(lia)).
  assert (b * cdiv a b <= c * cdiv a b) by nia. nia.
Qed.

Lemma cdiv_pos : forall a b, 0 < b -> 0 < a -> 1 <= cdiv a b.
Proof. intros a b Hb H. pose proof (cdiv_spec a b Hb). nia. Qed.

Lemma cdiv_nonneg : forall a b, 0 < b -> 0 <= a -> 0 <= cdiv a b.
Proof. intros a b Hb H. pose proof (cdiv_spec a b Hb). nia. Qed.

Lemma cdiv_0 : forall b, 0 < b -> cdiv 0 b = 0.
Proof. intros. apply cdiv_unique; lia. Qed.

Lemma cdiv_le_iff : forall a b q, 0 < b -> (cdiv a b <= q <-> a <= b * q).
Proof. intros a b q Hb. pose proof (cdiv_spec a b Hb). split; intros; nia. Qed.

Lemma cdiv_add_mul : forall a b k, 0 < b -> cdiv (a + k * b) b = cdiv a b + k.
Proof. intros a b k Hb. apply cdiv_unique; [lia|]. pose proof (cdiv_spec a b Hb). nia. Qed.

Lemma div_unique_pos : forall a b q, 0 < b -> b * q <= a < b * (q + 1) -> a / b = q.
Proof. intros. symmetry. apply Z.div_unique_pos with (a - b * q); lia. Qed.

Lemma div_spec : forall a b, 0 < b -> b * (a / b) <= a < b * (a / b + 1).
Proof.
  intros a b Hb. pose proof (Z.div_mod a b ltac:(lia)).
  pose proof (Z.mod_pos_bound a b Hb). nia.
Qed.

(** ** Sums over lists *)
Fixpoint zsum (l : list Z) : Z :=
  match l with [] => 0 | x :: r => x + zsum r end.

Lemma zsum_app : forall a b, zsum (a ++ b) = zsum a + zsum b.
Proof. induction a; intros; simpl; [lia|rewrite IHa; lia]. Qed.

Lemma zsum_perm : forall a b, Permutation a b -> zsum a = zsum b.
Proof. intros a b H. induction H; simpl; lia. Qed.

Lemma zsum_nonneg : forall l, (forall x, In x l -> 0 <= x) -> 0 <= zsum l.
Proof.
  induction l; intros H; simpl; [lia|].
  pose proof (H a (or_introl eq_refl)). specialize (IHl (fun x Hx => H x (or_intror Hx))). lia.
Qed.

Lemma zsum_map_le : forall A (f g : A -> Z) l,
  (forall x, In x l -> f x <= g x) -> zsum (map f l) <= zsum (map g l).
Proof.
  induction l; intros H; simpl; [lia|].
  pose proof (H a (or_introl eq_refl)). specialize (IHl (fun x Hx => H x (or_intror Hx))). lia.
Qed.

Lemma zsum_map_ext : forall A (f g : A -> Z) l,
  (forall x, In x l -> f x = g x) -> zsum (map f l) = zsum (map g l).
Proof. intros. f_equal. apply map_ext_in. assumption. Qed.

Lemma zsum_map_add : forall A (f g : A -> Z) l,
  zsum (map (fun x => f x + g x) l) = zsum (map f l) + zsum (map g l).
Proof. induction l; simpl; lia. Qed.

Lemma zsum_map_mul : forall A (f : A -> Z) c l,
  zsum (map (fun x => c * f x) l) = c * zsum (map f l).
Proof. induction l; simpl; [lia|]. rewrite IHl. lia. Qed.

Lemma zsum_map_const : forall A (c : Z) (l : list A),
  zsum (map (fun _ => c) l) = c * Z.of_nat (length l).
Proof. induction l; simpl length; simpl map; simpl zsum; lia. Qed.

Lemma zsum_in_le : forall A (f : A -> Z) l x,
  (forall y, In y l -> 0 <= f y) -> In x l -> f x <= zsum (map f l).
Proof.
  induction l; intros x Hp Hin; [inv Hin|]. simpl.
  assert (0 <= zsum (map f l)).
  { apply zsum_nonneg. intros y Hy. apply in_map_iff in Hy. destruct Hy as [z [<- Hz]].
    apply Hp. right. assumption. }
  destruct Hin as [->|Hin].
  - lia.
  - specialize (IHl x (fun y Hy => Hp y (or_intror Hy)) Hin).
    pose proof (Hp a (or_introl eq_refl)). lia.
Qed.

(** ** Sums over initial segments of nat *)
Fixpoint sumf (f : nat -> Z) (n : nat) : Z :=
  match n with O => 0 | S k => sumf f k + f k end.

Lemma sumf_ext : forall f g n, (forall k, (k < n)%nat -> f k = g k) -> sumf f n = sumf g n.
Proof.
  induction n; intros H; simpl; [reflexivity|].
  rewrite IHn by (intros; apply H; lia). rewrite (H n) by lia. reflexivity.
Qed.

Lemma sumf_le : forall f g n, (forall k, (k < n)%nat -> f k <= g k) -> sumf f n <= sumf g n.
Proof.
  induction n; intros H; simpl; [lia|].
  pose proof (IHn (fun k Hk => H k (Nat.lt_lt_succ_r _ _ Hk))).
  pose proof (H n (Nat.lt_succ_diag_r n)). lia.
Qed.

Lemma sumf_add : forall f g n, sumf (fun k => f k + g k) n = sumf f n + sumf g n.
Proof. induction n; simpl; lia. Qed.

Lemma sumf_mul : forall f c n, sumf (fun k => c * f k) n = c * sumf f n.
Proof. induction n; simpl; [lia|]. rewrite IHn. lia. Qed.

Lemma sumf_const : forall c n, sumf (fun _ => c) n = c * Z.of_nat n.
Proof. induction n; simpl sumf; lia. Qed.

Lemma sumf_zero : forall f n, (forall k, (k < n)%nat -> f k = 0) -> sumf f n = 0.
Proof.
  intros. rewrite (sumf_ext f (fun _ => 0)) by assumption. rewrite sumf_const. lia.
Qed.

Lemma sumf_nonneg : forall f n, (forall k, (k < n)%nat -> 0 <= f k) -> 0 <= sumf f n.
Proof.
  intros f n H. pose proof (sumf_le (fun _ => 0) f n H). rewrite sumf_const in H0. lia.
Qed.

Lemma sumf_split : forall f a b, sumf f (a + b) = sumf f a + sumf (fun k => f (a + k)%nat) b.
Proof.
  induction b; simpl.
  - rewrite Nat.add_0_r. lia.
  - rewrite Nat.add_succ_r. simpl. lia.
Qed.

Lemma sumf_mono : forall f a b, (a <= b)%nat -> (forall k, (k < b)%nat -> 0 <= f k) ->
  sumf f a <= sumf f b.
Proof.
  intros f a b Hab H. replace b with (a + (b - a))%nat by lia. rewrite sumf_split.
  assert (0 <= sumf (fun k => f (a + k)%nat) (b - a)); [|lia].
  apply sumf_nonneg. intros. apply H. lia.
Qed.

Lemma sumf_swap : forall (f : nat -> nat -> Z) n m,
  sumf (fun i => sumf (f i) m) n = sumf (fun j => sumf (fun i => f i j) n) m.
Proof.
  induction n; intros m; simpl.
  - symmetry. apply sumf_zero. reflexivity.
  - rewrite IHn. rewrite <- sumf_add. reflexivity.
Qed.

Lemma sumf_term_le : forall f n k, (k < n)%nat -> (forall i, (i < n)%nat -> 0 <= f i) ->
  f k <= sumf f n.
Proof.
  intros f n k Hk Hp.
  assert (sumf f k + f k <= sumf f n).
  { change (sumf f (S k) <= sumf f n). apply sumf_mono; [lia|assumption]. }
  assert (0 <= sumf f k) by (apply sumf_nonneg; intros; apply Hp; lia). lia.
Qed.

Lemma sumf_seq : forall f n, sumf f n = zsum (map f (seq 0 n)).
Proof.
  induction n; [reflexivity|].
  rewrite seq_S, map_app, zsum_app, <- IHn. simpl. lia.
Qed.

Definition b2z (b : bool) : Z := if b then 1 else 0.

Lemma b2z_range : forall b, 0 <= b2z b <= 1.
Proof. destruct b; simpl; lia. Qed.

Lemma nth_error_Some_lt : forall A (l : list A) n x, nth_error l n = Some x -> (n < length l)%nat.
Proof. intros. apply nth_error_Some. congruence. Qed.

Lemma nth_error_lt_Some : forall A (l : list A) n, (n < length l)%nat -> exists x, nth_error l n = Some x.
Proof.
  intros A l n H. destruct (nth_error l n) eqn:E; [eauto|].
  apply nth_error_None in E. lia.
Qed.

(** sum over list positions *)
Lemma zsum_map_nth : forall A (d : A) (f : A -> Z) l,
  zsum (map f l) = sumf (fun i => f (nth i l d)) (length l).
Proof.
  intros A d f l. induction l using rev_ind; [reflexivity|].
  rewrite map_app, zsum_app, app_length, Nat.add_1_r. simpl sumf. simpl.
  rewrite app_nth2, Nat.sub_diag by lia. simpl.
  rewrite IHl. f_equal; [|lia]. apply sumf_ext. intros. rewrite app_nth1 by lia. reflexivity.
Qed.
