(** * C83: attributes and items of a storage object are the same thing. *)

From Coq Require Import String List Bool.
From Verif Require Import ModelStorage.
Import ListNotations.
Open Scope string_scope.
Open Scope list_scope.

(** ** Specification, in terms of the history alone *)

(** The public methods of Python 2's dict, written out once more so that the
    theorems do not depend on the list in the model. *)
Definition dict_methods : list string :=
  ["clear"; "copy"; "fromkeys"; "get"; "has_key"; "items"; "iteritems";
   "iterkeys"; "itervalues"; "keys"; "pop"; "popitem"; "setdefault";
   "update"; "values"; "viewitems"; "viewkeys"; "viewvalues"].

(** An operation writes [v] to the name [k]. *)
Definition writes {V} (o : op V) (k : string) (v : V) : Prop :=
  o = SetAttr k v \/ o = SetItem k v.

(** An operation changes the name [k]. *)
Definition touches {V} (o : op V) (k : string) : Prop :=
  (exists v, writes o k v) \/ o = DelAttr k \/ o = DelItem k.

(** [v] is what the history wrote last to [k], and nothing changed it since. *)
Definition last_written {V} (h : list (op V)) (k : string) (v : V) : Prop :=
  exists h1 o h2, h = h1 ++ o :: h2 /\ writes o k v
    /\ forall o', In o' h2 -> ~ touches o' k.

(** The name is absent: never written, or deleted and not written since. *)
Definition absent {V} (h : list (op V)) (k : string) : Prop :=
  forall v, ~ last_written h k v.

(** The outcome of an operation after a history. *)
Definition sees {V} (h : list (op V)) (o : op V) (x : outcome V) : Prop :=
  nth_error (storage_run [] (h ++ [o])) (length h) = Some x.

(** ** Proof *)

Fixpoint final {V} (d : dict V) (os : list (op V)) : dict V :=
  match os with [] => d | o :: r => final (fst (storage_step d o)) r end.

Lemma final_app : forall V (a b : list (op V)) d,
  final d (a ++ b) = final (final d a) b.
Proof. induction a; simpl; auto. Qed.

Lemma sees_iff : forall V (h : list (op V)) o d x,
  nth_error (storage_run d (h ++ [o])) (length h) = Some x <->
  snd (storage_step (final d h) o) = x.
Proof.
  induction h as [|a h IH]; intros; cbn [app storage_run length final].
  - destruct (storage_step d o); simpl. split; congruence.
  - destruct (storage_step d a) as [d' y] eqn:E. cbn [nth_error fst]. apply IH.
Qed.

Definition keys_nodup {V} (d : dict V) := NoDup (map fst d).

Lemma get_none : forall V (d : dict V) k, dict_get d k = None <-> ~ In k (map fst d).
Proof.
  induction d as [|[k' v] d IH]; simpl; intros.
  - tauto.
  - destruct (String.eqb_spec k k').
    + subst. split; [discriminate | tauto].
    + rewrite IH. intuition congruence.
Qed.

Lemma get_set : forall V (d : dict V) k v k',
  dict_get (dict_set d k v) k' = if String.eqb k' k then Some v else dict_get d k'.
Proof.
  induction d as [|[a w] d IH]; simpl; intros; auto.
  destruct (String.eqb_spec k a); simpl.
  - subst. destruct (String.eqb k' a); auto.
  - rewrite IH. destruct (String.eqb_spec k' a), (String.eqb_spec k' k); congruence.
Qed.

Lemma set_keys : forall V (d : dict V) k v x,
  In x (map fst (dict_set d k v)) -> x = k \/ In x (map fst d).
Proof.
  induction d as [|[a w] d IH]; simpl; intros.
  - intuition.
  - destruct (String.eqb_spec k a); simpl in *; [subst; tauto|].
    destruct H; [tauto|]. apply IH in H. tauto.
Qed.

Lemma set_nodup : forall V (d : dict V) k v, keys_nodup d -> keys_nodup (dict_set d k v).
Proof.
  unfold keys_nodup. induction d as [|[a w] d IH]; simpl; intros.
  - repeat constructor. simpl. tauto.
  - inversion H; subst. destruct (String.eqb_spec k a); simpl.
    + subst. constructor; auto.
    + constructor; auto. intro I. apply set_keys in I. destruct I; congruence.
Qed.

Lemma del_spec : forall V (d : dict V) k, keys_nodup d ->
  match dict_del d k with
  | Some d' => keys_nodup d' /\ (exists v, dict_get d k = Some v) /\
      (forall x, In x (map fst d') -> In x (map fst d)) /\
      forall k', dict_get d' k' = if String.eqb k' k then None else dict_get d k'
  | None => dict_get d k = None
  end.
Proof.
  unfold keys_nodup. induction d as [|[a w] d IH]; simpl; intros; auto.
  inversion H; subst. destruct (String.eqb_spec k a).
  - subst. split; [auto|]. split; [eauto|]. split; [auto|]. intros.
    destruct (String.eqb_spec k' a); auto. subst. apply get_none. auto.
  - specialize (IH k H3). destruct (dict_del d k) as [d'|]; auto.
    destruct IH as (A & B & C & D). simpl. split; [constructor; auto|].
    split; [auto|]. split; [intuition|]. intros. rewrite D.
    destruct (String.eqb_spec k' a), (String.eqb_spec k' k); congruence.
Qed.

Lemma final_nodup : forall V (h : list (op V)) d, keys_nodup d -> keys_nodup (final d h).
Proof.
  induction h as [|o h IH]; simpl; intros; auto. apply IH.
  destruct o; simpl; auto using set_nodup; unfold delattr;
    pose proof (del_spec V d k H) as P; destruct (dict_del d k); simpl; tauto.
Qed.

Lemma step_get : forall V (d : dict V) o k, keys_nodup d ->
  (forall v, writes o k v -> dict_get (fst (storage_step d o)) k = Some v) /\
  (o = DelAttr k \/ o = DelItem k -> dict_get (fst (storage_step d o)) k = None) /\
  (~ touches o k -> dict_get (fst (storage_step d o)) k = dict_get d k).
Proof.
  intros V d o k N. split; [|split].
  - intros v [E|E]; subst; simpl; rewrite get_set, String.eqb_refl; auto.
  - intros [E|E]; subst; simpl; unfold delattr;
      pose proof (del_spec V d k N) as P; destruct (dict_del d k); simpl; auto;
      destruct P as (_ & _ & _ & P); rewrite P, String.eqb_refl; auto.
  - intros T. destruct o as [a|a v|a|a|a v|a]; simpl; auto.
    1,3: rewrite get_set; destruct (String.eqb_spec k a); auto; subst;
         exfalso; apply T; left; exists v; unfold writes; auto.
    all: unfold delattr; pose proof (del_spec V d a N) as P; destruct (dict_del d a);
         simpl; auto; destruct P as (_ & _ & _ & P); rewrite P;
         destruct (String.eqb_spec k a); auto; subst; exfalso; apply T; right; auto.
Qed.

Lemma touch_dec : forall V (o : op V) k,
  (exists v, writes o k v) \/ (o = DelAttr k \/ o = DelItem k) \/ ~ touches o k.
Proof.
  intros V o k.
  destruct o as [a|a v|a|a|a v|a]; destruct (string_dec a k); subst;
    try (left; exists v; unfold writes; auto; fail);
    try (right; left; auto; fail);
    right; right; intros [[w [E|E]]|[E|E]]; congruence.
Qed.

Lemma final_last : forall V (h : list (op V)) k v,
  dict_get (final [] h) k = Some v <-> last_written h k v.
Proof.
  intros V h k. induction h as [|o h IH] using rev_ind; intros v.
  - split; [discriminate|]. intros (h1 & o & h2 & E & _). destruct h1; discriminate.
  - rewrite final_app. cbn [final].
    assert (N : keys_nodup (final [] h)) by (apply final_nodup; constructor).
    destruct (step_get V _ o k N) as (W & D & T).
    assert (L : last_written (h ++ [o]) k v <->
                writes o k v \/ (~ touches o k /\ last_written h k v)).
    { split.
      - intros (h1 & o1 & h2 & E & A & B).
        destruct h2 as [|z h2 _] using rev_ind.
        + apply app_inj_tail in E. destruct E; subst. auto.
        + rewrite app_comm_cons, app_assoc in E. apply app_inj_tail in E.
          destruct E; subst. right. split; [apply B; apply in_or_app; simpl; auto|].
          exists h1, o1, h2. repeat split; auto. intros. apply B. apply in_or_app; auto.
      - intros [A|[A (h1 & o1 & h2 & E & B & C)]].
        + exists h, o, []. repeat split; auto. 
        + exists h1, o1, (h2 ++ [o]). subst. rewrite <- app_assoc. repeat split; auto.
          intros o' I. apply in_app_or in I. destruct I as [I|[I|[]]]; subst; auto. }
    rewrite L. destruct (touch_dec V o k) as [[w A]|[A|A]].
    + rewrite (W w A). split.
      * intros E. injection E as <-. auto.
      * intros [B|[B _]]; [|exfalso; apply B; left; eauto].
        destruct A as [A|A], B as [B|B]; congruence.
    + rewrite (D A). split; [discriminate|].
      intros [[B|B]|[B _]]; [destruct A; congruence..|].
      exfalso; apply B; right; auto.
    + rewrite (T A), IH. split; [auto|].
      intros [B|[_ B]]; auto. exfalso; apply A; left; eauto.
Qed.

Lemma final_absent : forall V (h : list (op V)) k,
  dict_get (final [] h) k = None <-> absent h k.
Proof.
  intros. unfold absent. split.
  - intros E v L. apply final_last in L. congruence.
  - intros A. destruct (dict_get (final [] h) k) eqn:E; auto.
    exfalso. apply (A v). apply final_last. auto.
Qed.

(** ** C83 *)

(** After any history, reading a name as an item gives what was written last
    to it, as an attribute or as an item, and a KeyError if it is absent. *)
Theorem C83_items : forall V (h : list (op V)) k,
  (forall v, sees h (GetItem k) (Value v) <-> last_written h k v) /\
  (sees h (GetItem k) (KeyError k) <-> absent h k).
Proof.
  intros. unfold sees. split; [intros v|]; rewrite sees_iff; simpl.
  - rewrite <- final_last. destruct (dict_get _ _); split; congruence.
  - rewrite <- final_absent. destruct (dict_get _ _); split; congruence.
Qed.
Print Assumptions C83_items.

(** The same for attributes with an AttributeError, if the name is not that of
    a method of dict. *)
Theorem C83_attributes : forall V (h : list (op V)) k,
  ~ In k dict_methods ->
  (forall v, sees h (GetAttr k) (Value v) <-> last_written h k v) /\
  (sees h (GetAttr k) (AttributeError k) <-> absent h k).
Proof.
  intros V h k R. change dict_methods with class_attributes in R.
  assert (F : is_class_attribute k = false).
  { unfold is_class_attribute. apply not_true_is_false. intro E.
    apply existsb_exists in E. destruct E as (y & I & E).
    apply String.eqb_eq in E. subst. auto. }
  unfold sees. split; [intros v|]; rewrite sees_iff; simpl; unfold getattr; rewrite F.
  - rewrite <- final_last. destruct (dict_get _ _); split; congruence.
  - rewrite <- final_absent. destruct (dict_get _ _); split; congruence.
Qed.
Print Assumptions C83_attributes.

(** Writing always succeeds; deleting fails exactly if the name is absent,
    with the error that fits the way it was attempted. *)
Theorem C83_changes : forall V (h : list (op V)) k v,
  sees h (SetAttr k v) Done /\ sees h (SetItem k v) Done /\
  (absent h k -> sees h (DelAttr k) (AttributeError k)
                 /\ sees h (DelItem k) (KeyError k)) /\
  (forall w, last_written h k w ->
     sees h (DelAttr k) Done /\ sees h (DelItem k) Done).
Proof.
  intros. unfold sees. rewrite !sees_iff. simpl. unfold delattr.
  assert (N : keys_nodup (final [] h)) by (apply final_nodup; constructor).
  pose proof (del_spec V _ k N) as P.
  split; [auto|]. split; [auto|]. split.
  - intros A. apply final_absent in A. rewrite ?sees_iff. simpl. unfold delattr.
    destruct (dict_del _ k); auto. destruct P as (_ & [w E] & _). congruence.
  - intros w L. apply final_last in L. rewrite ?sees_iff. simpl. unfold delattr.
    destruct (dict_del _ k); auto. congruence.
Qed.
Print Assumptions C83_changes.

(** With the name of a method of dict, what was written as an attribute never
    comes back as an attribute: the method does, whatever the history. *)
Theorem C83_method_names_refuted : forall V (h : list (op V)) k (v : V),
  In k dict_methods ->
  sees (h ++ [SetAttr k v]) (GetAttr k) (Method k) /\
  sees (h ++ [SetAttr k v]) (GetItem k) (Value v).
Proof.
  intros V h k v I. change dict_methods with class_attributes in I. unfold sees. rewrite !sees_iff, final_app. simpl.
  unfold getattr, is_class_attribute. split.
  - replace (existsb (String.eqb k) class_attributes) with true; auto.
    symmetry. apply existsb_exists. exists k. split; auto. apply String.eqb_refl.
  - rewrite get_set, String.eqb_refl. auto.
Qed.
Print Assumptions C83_method_names_refuted.

(** A history that mixes both ways, deletes a name and uses the name of a
    method. *)
Example C83_sample :
  storage_run []
    [SetAttr "a" 1; GetItem "a"; SetItem "a" 2; GetAttr "a"; SetItem "b" 7;
     DelAttr "a"; GetAttr "a"; GetItem "a"; DelItem "a"; GetAttr "b";
     SetAttr "items" 3; GetAttr "items"; GetItem "items"]
  = [Done; Value 1; Done; Value 2; Done;
     Done; AttributeError "a"; KeyError "a"; KeyError "a"; Value 7;
     Done; Method "items"; Value 3]
  /\ ~ In "a" dict_methods /\ In "items" dict_methods.
Proof.
  split; [reflexivity|]. split.
  - simpl. intuition discriminate.
  - simpl. tauto.
Qed.
