(** Every legal job sequence has a global EDF schedule: the specification in
    SpecGlobal is inhabited. *)
From Coq Require Import ZArith List Bool Lia Permutation Sorted.
From Verif Require Import Base SpecUni SpecQPA SpecGlobal ProofUni ProofGreedy ProofEDF ProofGlobal.
Import ListNotations.
Open Scope Z_scope.

Section Sort.
  Context {A : Type} (key : A -> Z).
  Fixpoint ins (x : A) (l : list A) : list A :=
    match l with [] => [x] | y :: r => if key x <=? key y then x :: l else y :: ins x r end.
  Definition isort (l : list A) : list A := fold_right ins [] l.

  Lemma ins_perm : forall x l, Permutation (x :: l) (ins x l).
  Proof.
    induction l as [|y l IH]; cbn; [reflexivity|]. destruct (key x <=? key y); [reflexivity|].
    rewrite perm_swap. constructor. exact IH.
  Qed.
  Lemma isort_perm : forall l, Permutation l (isort l).
  Proof. induction l; cbn; [constructor|]. rewrite <- ins_perm. constructor. assumption. Qed.

  Let le x y := key x <= key y.
  Lemma ins_sorted : forall x l, StronglySorted le l -> StronglySorted le (ins x l).
  Proof.
    induction l as [|y l IH]; intros H; cbn; [repeat constructor|]. inversion_clear H as [|? ? H1 H2].
    destruct (Z.leb_spec (key x) (key y)).
    - constructor; [constructor; assumption|]. constructor; [exact H|]. eapply Forall_impl; [|exact H2]. unfold le. intros. lia.
    - constructor; [apply IH; assumption|]. apply Forall_forall. intros z Hz.
      eapply Permutation_in in Hz; [|symmetry; apply ins_perm]. destruct Hz as [<-|Hz]; [unfold le; lia|].
      rewrite Forall_forall in H2. auto.
  Qed.
  Lemma isort_sorted : forall l, StronglySorted le (isort l).
  Proof. induction l; cbn; [constructor|apply ins_sorted; assumption]. Qed.

  Lemma sorted_split : forall a b x y, StronglySorted le (a ++ b) -> In x a -> In y b -> key x <= key y.
  Proof.
    induction a as [|z a IH]; intros b x y H Hx Hy; [destruct Hx|]. cbn in H. inversion_clear H as [|? ? H1 H2].
    destruct Hx as [<-|Hx]; [|eapply IH; eassumption]. rewrite Forall_forall in H2. apply (H2 y). apply in_or_app. right. exact Hy.
  Qed.
End Sort.

Section GGreedy.
  Variable pick : nat -> (job -> Z) -> list job.
  Definition ghist_service (h : list (list job)) (j : job) : Z := zsum (map (fun l => b2z (existsb (job_eqb j) l)) h).
  Fixpoint ghist (t : nat) : list (list job) :=
    match t with O => [] | S u => pick u (ghist_service (ghist u)) :: ghist u end.
  Definition ggreedy : gschedule := fun t => pick t (ghist_service (ghist t)).

  Lemma ghist_service_eq : forall t j, ghist_service (ghist t) j = gservice ggreedy j t.
  Proof.
    induction t; intros j; [reflexivity|]. unfold gservice. cbn [sumf]. fold (gservice ggreedy j t). rewrite <- IHt.
    unfold ghist_service at 1. cbn [ghist map zsum]. fold (ghist_service (ghist t) j). unfold gruns, ggreedy. lia.
  Qed.

  Lemma ggreedy_ext : (forall t f g, (forall j, f j = g j) -> pick t f = pick t g) ->
    forall t, ggreedy t = pick t (fun j => gservice ggreedy j t).
  Proof. intros H t. unfold ggreedy at 1. apply H. intros. apply ghist_service_eq. Qed.
End GGreedy.

Definition greadyb (s : jobseq) (t : nat) (f : job -> Z) (j : job) : bool :=
  Nat.leb (rel s (fst j) (snd j)) t && (f j <? Z.of_nat (cst s (fst j) (snd j))) &&
  forallb (fun k => Z.of_nat (cst s (fst j) k) <=? f (fst j, k)) (seq 0 (snd j)).

Lemma greadyb_iff : forall s sc t j, greadyb s t (fun j => gservice sc j t) j = true <-> gready s sc j t.
Proof.
  intros s sc t j. unfold greadyb, gready. rewrite !andb_true_iff, Nat.leb_le, Z.ltb_lt, forallb_forall. split.
  - intros [[H1 H2] H3]. split; [assumption|]. split; [assumption|]. intros k Hk. apply Z.leb_le. apply H3. apply in_seq. lia.
  - intros [H1 [H2 H3]]. split; [split; assumption|]. intros k Hk. apply in_seq in Hk. apply Z.leb_le. apply H3. lia.
Qed.

Definition pick_gedf (ts : list etask) (m : nat) (s : jobseq) (t : nat) (f : job -> Z) : list job :=
  firstn m (isort (due ts s) (filter (greadyb s t f) (candidates (length ts) t))).

Definition gedf_schedule (ts : list etask) (m : nat) (s : jobseq) : gschedule := ggreedy (pick_gedf ts m s).

Lemma filter_ext' : forall A (P Q : A -> bool) l, (forall x, P x = Q x) -> filter P l = filter Q l.
Proof. induction l; intros H; cbn; [reflexivity|]. rewrite H, IHl by assumption. reflexivity. Qed.

Lemma forallb_ext' : forall A (P Q : A -> bool) l, (forall x, P x = Q x) -> forallb P l = forallb Q l.
Proof. induction l; intros H; cbn; [reflexivity|]. rewrite H, IHl by assumption. reflexivity. Qed.

Lemma gedf_schedule_eq : forall ts m s t, gedf_schedule ts m s t =
  firstn m (isort (due ts s) (filter (greadyb s t (fun j => gservice (gedf_schedule ts m s) j t)) (candidates (length ts) t))).
Proof.
  intros. unfold gedf_schedule. rewrite ggreedy_ext; [reflexivity|]. intros t0 f g H. unfold pick_gedf. do 2 f_equal.
  apply filter_ext'. intros j. unfold greadyb. rewrite H. f_equal. apply forallb_ext'. intros k. rewrite H. reflexivity.
Qed.

Lemma NoDup_app_disj : forall A (a b : list A), NoDup a -> NoDup b -> (forall x, In x a -> ~ In x b) -> NoDup (a ++ b).
Proof.
  induction a as [|x a IH]; intros b Ha Hb H; [assumption|]. cbn. inversion_clear Ha. constructor.
  - intros Hi. apply in_app_or in Hi. destruct Hi as [Hi|Hi]; [contradiction|]. apply (H x); [left; reflexivity|assumption].
  - apply IH; [assumption|assumption|]. intros y Hy. apply H. right. assumption.
Qed.

Lemma candidates_nodup : forall n t, NoDup (candidates n t).
Proof.
  intros n t. unfold candidates. assert (G : forall m lo, NoDup (flat_map (fun h => map (fun k => (h, k)) (seq 0 (S t))) (seq lo m))).
  { induction m; intros lo; [constructor|]. cbn [seq flat_map]. apply NoDup_app_disj; [| apply IHm|].
    - apply (FinFun.Injective_map_NoDup (f := fun k : nat => (lo, k)) (l := seq 0 (S t))); [intros x y E; congruence|apply seq_NoDup].
    - intros [h k] H1 H2. apply in_map_iff in H1. destruct H1 as [k1 [E1 _]]. inv E1.
      apply in_flat_map in H2. destruct H2 as [h2 [X1 X2]]. apply in_map_iff in X2. destruct X2 as [k2 [E2 _]]. inv E2.
      apply in_seq in X1. lia. }
  apply G.
Qed.

Lemma firstn_in : forall A m (l : list A) x, In x (firstn m l) -> In x l.
Proof. intros A m l x H. rewrite <- (firstn_skipn m l). apply in_or_app. left. exact H. Qed.

Lemma NoDup_firstn : forall A m (l : list A), NoDup l -> NoDup (firstn m l).
Proof.
  induction m; intros l H; [constructor|]. destruct l as [|x l]; [constructor|]. cbn. inversion_clear H. constructor; [|auto].
  intros Hi. apply firstn_in in Hi. contradiction.
Qed.

Lemma gedf_schedule_valid : forall ts m s, gvalid (length ts) m s (gedf_schedule ts m s).
Proof.
  intros ts m s t. rewrite gedf_schedule_eq. split; [apply firstn_le_length|].
  set (L := filter _ _). split.
  - apply NoDup_firstn. eapply Permutation_NoDup; [apply isort_perm|]. apply NoDup_filter. apply candidates_nodup.
  - intros j Hj. apply firstn_in in Hj. eapply Permutation_in in Hj; [|symmetry; apply isort_perm].
    apply filter_In in Hj. destruct Hj as [H1 H2]. apply in_candidates in H1. apply greadyb_iff in H2. tauto.
Qed.

Lemma gedf_schedule_gedf : forall ts m s, (forall h k, (h < length ts)%nat -> (k <= rel s h k)%nat) ->
  gedf ts m s (gedf_schedule ts m s).
Proof.
  intros ts m s Hidx t j Hj Hr Hn. rewrite gedf_schedule_eq in *. set (L := filter _ _) in *. set (I := isort (due ts s) L) in *.
  assert (Hin : In j I).
  { eapply Permutation_in; [apply isort_perm|]. apply filter_In. split; [|apply greadyb_iff; exact Hr].
    apply in_candidates. split; [assumption|]. destruct Hr as [Hr _]. specialize (Hidx (fst j) (snd j) Hj). lia. }
  assert (Hs : In j (skipn m I)).
  { rewrite <- (firstn_skipn m I) in Hin. apply in_app_or in Hin. destruct Hin; [contradiction|assumption]. }
  split.
  - rewrite firstn_length. destruct (Nat.le_gt_cases m (length I)); [lia|]. rewrite skipn_all2 in Hs by lia. destruct Hs.
  - intros j' Hj'. apply (sorted_split (due ts s) (firstn m I) (skipn m I)); try assumption.
    rewrite firstn_skipn. apply isort_sorted.
Qed.

(** For every legal job sequence there is a valid global EDF schedule. *)
Lemma gedf_exists : forall ts m s, Forall wf_etask ts -> legal_edf ts s ->
  exists sc, gvalid (length ts) m s sc /\ gedf ts m s sc.
Proof.
  intros ts m s Hw Hl. exists (gedf_schedule ts m s). split; [apply gedf_schedule_valid|].
  apply gedf_schedule_gedf. intros h k Hh. eapply idx_le; eassumption.
Qed.
