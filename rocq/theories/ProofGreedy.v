(** Construction of schedules: at each instant a rule looks at the service
    received so far and picks a job.  Used to show that the specifications of
    scheduling policies are inhabited. *)
From Coq Require Import ZArith List Bool Lia.
From Verif Require Import Base SpecUni ProofUni.
Import ListNotations.
Open Scope Z_scope.

Section Greedy.
  Variable pick : nat -> (job -> Z) -> option job.

  Definition hist_service (h : list (option job)) (j : job) : Z :=
    zsum (map (fun o => b2z match o with Some j' => job_eqb j' j | None => false end) h).

  Fixpoint hist (t : nat) : list (option job) :=
    match t with O => [] | S u => pick u (hist_service (hist u)) :: hist u end.

  Definition greedy : schedule := fun t => pick t (hist_service (hist t)).

  Lemma hist_service_eq : forall t j, hist_service (hist t) j = service greedy j t.
  Proof.
    induction t; intros j; [reflexivity|].
    rewrite service_step, <- IHt. unfold hist_service at 1. simpl. fold (hist_service (hist t) j).
    unfold runs, greedy. lia.
  Qed.

  Lemma greedy_pick_ext : (forall t f g, (forall j, f j = g j) -> pick t f = pick t g) ->
    forall t, greedy t = pick t (fun j => service greedy j t).
  Proof. intros H t. unfold greedy at 1. apply H. intros. apply hist_service_eq. Qed.
End Greedy.

(** All jobs of the first n tasks with index at most t, in priority order. *)
Definition candidates (n t : nat) : list job :=
  flat_map (fun h => map (fun k => (h, k)) (seq 0 (S t))) (seq 0 n).

Lemma in_candidates : forall n t j, In j (candidates n t) <-> (fst j < n)%nat /\ (snd j <= t)%nat.
Proof.
  intros n t [h k]. unfold candidates. rewrite in_flat_map. split.
  - intros [x [Hx H]]. apply in_map_iff in H. destruct H as [y [E Hy]]. inv E.
    apply in_seq in Hx. apply in_seq in Hy. simpl. lia.
  - cbn [fst snd]. intros [H1 H2]. exists h. split; [apply in_seq; lia|]. apply in_map_iff. exists k.
    split; [reflexivity|]. apply in_seq. lia.
Qed.

Definition pendingb (s : jobseq) (t : nat) (f : job -> Z) (j : job) : bool :=
  Nat.leb (rel s (fst j) (snd j)) t && (f j <? Z.of_nat (cst s (fst j) (snd j))).

Lemma pendingb_iff : forall s sc t j, pendingb s t (fun j => service sc j t) j = true <-> pending s sc j t.
Proof.
  intros. unfold pendingb, pending. rewrite andb_true_iff, Nat.leb_le, Z.ltb_lt. tauto.
Qed.

(** candidates in decreasing order of importance *)
Lemma find_first : forall A (P : A -> bool) l x, find P l = Some x ->
  exists a b, l = a ++ x :: b /\ P x = true /\ forall y, In y a -> P y = false.
Proof.
  induction l as [|y l IH]; intros x H; cbn in H; [discriminate|].
  destruct (P y) eqn:E.
  - inv H. exists [], l. repeat split; auto. intros ? [].
  - destruct (IH x H) as [a [b [-> [H1 H2]]]]. exists (y :: a), b. repeat split; auto.
    intros z [<-|Hz]; auto.
Qed.

Definition pick_fp (n : nat) (s : jobseq) (t : nat) (f : job -> Z) : option job :=
  find (pendingb s t f) (candidates n t).

Definition fp_schedule (n : nat) (s : jobseq) : schedule := greedy (pick_fp n s).

Lemma find_ext : forall A (P Q : A -> bool) l, (forall x, P x = Q x) -> find P l = find Q l.
Proof. induction l; intros H; cbn; [reflexivity|]. rewrite H, IHl by assumption. reflexivity. Qed.

Lemma fp_schedule_eq : forall n s t, fp_schedule n s t =
  find (pendingb s t (fun j => service (fp_schedule n s) j t)) (candidates n t).
Proof.
  intros. unfold fp_schedule. rewrite greedy_pick_ext; [reflexivity|].
  intros. unfold pick_fp. apply find_ext. intros. unfold pendingb. rewrite H. reflexivity.
Qed.

Lemma fp_schedule_valid : forall n s, valid_schedule n s (fp_schedule n s).
Proof.
  intros n s t j H. rewrite fp_schedule_eq in H. apply find_some in H. destruct H as [H1 H2].
  apply in_candidates in H1. apply pendingb_iff in H2. tauto.
Qed.

Lemma app_split : forall A (row rest a b : list A) j, row ++ rest = a ++ j :: b ->
  (exists b', row = a ++ j :: b') \/ (exists a', a = row ++ a' /\ rest = a' ++ j :: b).
Proof.
  intros A row rest. induction row as [|x row IH]; intros a b j E.
  - right. exists a. split; [reflexivity|exact E].
  - destruct a as [|y a]; cbn in E.
    + inv E. left. exists row. reflexivity.
    + inv E. destruct (IH a b j H1) as [[b' Hb]|[a' [Ha Hb]]].
      * left. exists b'. rewrite Hb. reflexivity.
      * right. exists a'. rewrite Ha. split; [reflexivity|assumption].
Qed.

Lemma candidates_sorted : forall n t a j b, candidates n t = a ++ j :: b ->
  forall j', (fst j' < n)%nat -> (snd j' <= t)%nat -> hep j' j = true -> j' <> j -> In j' a.
Proof.
  intros n t. unfold candidates.
  assert (Hrow : forall m (h lo : nat) a (j : job) b, map (fun k => (h, k)) (seq lo m) = a ++ j :: b ->
    forall k', (lo <= k')%nat -> (k' < snd j)%nat -> In (h, k') a).
  { induction m as [|m IH]; intros h lo a j b E k' H1 H2; cbn in E.
    - destruct a; discriminate.
    - destruct a as [|x a]; cbn in E.
      + inv E. simpl in H2. lia.
      + inv E. destruct (Nat.eq_dec k' lo) as [->|]; [left; reflexivity|]. right.
        eapply IH; [eassumption|lia|lia]. }
  assert (Hall : forall m lo a (j : job) b, flat_map (fun h => map (fun k => (h, k)) (seq 0 (S t))) (seq lo m) = a ++ j :: b ->
    forall j', (lo <= fst j')%nat -> (snd j' <= t)%nat -> hep j' j = true -> j' <> j -> In j' a).
  { induction m as [|m IH]; intros lo a j b E j' H1 H2 H3 H4; cbn [seq flat_map] in E.
    - destruct a; discriminate.
    - set (row := map (fun k => (lo, k)) (seq 0 (S t))) in *.
      assert (Hc : (exists b', row = a ++ j :: b') \/ (exists a', a = row ++ a' /\
               flat_map (fun h => map (fun k => (h, k)) (seq 0 (S t))) (seq (S lo) m) = a' ++ j :: b)).
      { apply app_split. exact E. }
      destruct Hc as [[b' Hb]|[a' [Ha Hb]]].
      + assert (Hj : In j row) by (rewrite Hb; apply in_or_app; right; left; reflexivity).
        unfold row in Hj. apply in_map_iff in Hj. destruct Hj as [k [<- Hk]].
        apply hep_iff in H3. simpl in H3. destruct j' as [h' k']. simpl in *.
        assert (h' = lo) by lia. subst. apply (Hrow (S t) lo 0%nat a (lo, k) b' Hb k'); [lia|].
        simpl. assert (k' <> k) by congruence. lia.
      + rewrite Ha. apply in_or_app. destruct (Nat.eq_dec (fst j') lo) as [<-|].
        * left. destruct j' as [h' k']. unfold row. apply in_map_iff. exists k'. split; [reflexivity|].
          apply in_seq. simpl in H2. lia.
        * right. eapply IH; [eassumption|lia|lia|assumption|assumption]. }
  intros a j b E j' H1 H2 H3 H4. eapply Hall; [eassumption|lia|assumption|assumption|assumption].
Qed.

Lemma fp_schedule_strict : forall n s,
  (forall h k, (h < n)%nat -> (k <= rel s h k)%nat) ->
  fp_strict n s (fp_schedule n s).
Proof.
  intros n s Hidx t j Hj Hp.
  assert (Hc : In j (candidates n t)).
  { apply in_candidates. split; [assumption|]. destruct Hp as [Hr _]. specialize (Hidx (fst j) (snd j) Hj). lia. }
  apply pendingb_iff in Hp. pose proof (fp_schedule_eq n s t) as E.
  destruct (find (pendingb s t (fun j => service (fp_schedule n s) j t)) (candidates n t)) as [j'|] eqn:F.
  - exists j'. split; [assumption|]. apply find_first in F. destruct F as [a [b [Ec [H1 H2]]]].
    destruct (hep j' j) eqn:Hh; [reflexivity|]. exfalso.
    assert (Hin : In j a).
    { eapply candidates_sorted; [eassumption|assumption| | |].
      - apply in_candidates in Hc. tauto.
      - apply hep_iff. destruct (hep j' j) eqn:G; [discriminate|].
        apply not_true_iff_false in G. rewrite hep_iff in G. lia.
      - intro. subst. rewrite hep_refl in Hh. discriminate. }
    apply H2 in Hin. congruence.
  - exfalso. apply (find_none _ _ F) in Hc. congruence.
Qed.
