(** Piecewise linear functions have rational zeros. *)
From Coq Require Import ZArith QArith Qround Lqa List Bool Lia Permutation.
From Verif Require Import Base ModelTasks ProofTasks ModelTardiness ModelGFRL ProofTardiness ProofTardinessSafe ProofTardinessTop ProofGFRL.
Import ListNotations.
Open Scope Q_scope.

Definition aff (f : Q -> Q) (a b : Q) : Prop := exists c d, forall x, a <= x -> x <= b -> f x == c * x + d.

Inductive pl (f : Q -> Q) : Q -> Q -> Prop :=
| pl_one : forall a b, a <= b -> aff f a b -> pl f a b
| pl_cat : forall a c b, pl f a c -> pl f c b -> pl f a b.

Inductive pl2 (f g : Q -> Q) : Q -> Q -> Prop :=
| pl2_one : forall a b, a <= b -> aff f a b -> aff g a b -> pl2 f g a b
| pl2_cat : forall a c b, pl2 f g a c -> pl2 f g c b -> pl2 f g a b.

Definition PL (f : Q -> Q) : Prop := forall a b, a <= b -> pl f a b.

Lemma pl_le : forall f a b, pl f a b -> a <= b.
Proof. intros f a b H. induction H; lra. Qed.

Lemma aff_sub : forall f a b a' b', aff f a b -> a <= a' -> b' <= b -> aff f a' b'.
Proof. intros f a b a' b' (c & d & H) A B. exists c, d. intros x X1 X2. apply H; lra. Qed.

Lemma joint : forall f g a b, PL g -> pl f a b -> pl2 f g a b.
Proof.
  intros f g a b Hg H. induction H as [a b Hab Ha|a c b H1 IH1 H2 IH2]; [|eapply pl2_cat; eassumption].
  specialize (Hg a b Hab). induction Hg as [a b _ Hg|a c b H1 IH1 H2 IH2].
  - apply pl2_one; assumption.
  - pose proof (pl_le _ _ _ H1). pose proof (pl_le _ _ _ H2). eapply pl2_cat; [apply IH1|apply IH2]; try assumption; eapply aff_sub; try eassumption; lra.
Qed.

Lemma pl_zero : forall f a b, pl f a b -> 0 <= f a -> f b <= 0 -> exists x, a <= x /\ x <= b /\ f x == 0.
Proof.
  intros f a b H. induction H as [a b Hab (c & d & H)|a c b H1 IH1 H2 IH2]; intros A B.
  - pose proof (H a (Qle_refl a) Hab) as Ea. pose proof (H b Hab (Qle_refl b)) as Eb.
    destruct (Qeq_dec c 0) as [E|E].
    + exists a. split; [lra|]. split; [exact Hab|]. assert (c * a == 0) by (rewrite E; ring). assert (c * b == 0) by (rewrite E; ring). lra.
    + assert (X : c * (- d / c) + d == 0) by (field; exact E).
      assert (X1 : a <= - d / c) by (set (x := - d / c) in *; nra). assert (X2 : - d / c <= b) by (set (x := - d / c) in *; nra).
      exists (- d / c). split; [exact X1|]. split; [exact X2|]. rewrite H by assumption. exact X.
  - pose proof (pl_le _ _ _ H1). pose proof (pl_le _ _ _ H2). destruct (Qlt_le_dec (f c) 0) as [L|L].
    + destruct (IH1 A ltac:(lra)) as (x & X1 & X2 & X3). exists x. repeat split; lra.
    + destruct (IH2 L B) as (x & X1 & X2 & X3). exists x. repeat split; lra.
Qed.

Lemma PL_ext : forall f g, (forall x, f x == g x) -> PL f -> PL g.
Proof.
  intros f g E H a b Hab. specialize (H a b Hab). induction H as [a b H1 (c & d & H2)|a c b H1 IH1 H2 IH2].
  - apply pl_one; [exact H1|]. exists c, d. intros x X1 X2. rewrite <- E. apply H2; assumption.
  - pose proof (pl_le _ _ _ H1). pose proof (pl_le _ _ _ H2). eapply pl_cat; [apply IH1|apply IH2]; assumption.
Qed.

Lemma PL_lin : forall c d, PL (fun x => c * x + d).
Proof. intros c d a b Hab. apply pl_one; [exact Hab|]. exists c, d. intros. reflexivity. Qed.

Lemma PL_const : forall d, PL (fun _ => d).
Proof. intros d. apply (PL_ext (fun x => 0 * x + d)); [intros; ring|apply PL_lin]. Qed.

Lemma PL_comb : forall u v f g, PL f -> PL g -> PL (fun x => u * f x + v * g x).
Proof.
  intros u v f g Hf Hg a b Hab. pose proof (joint f g a b Hg (Hf a b Hab)) as H. clear Hab. induction H as [a b H0 (c & d & H1) (c' & d' & H2)|a c b H1 IH1 H2 IH2].
  - apply pl_one; [exact H0|]. exists (u * c + v * c'), (u * d + v * d'). intros x X1 X2. rewrite H1, H2 by assumption. ring.
  - eapply pl_cat; eassumption.
Qed.

Definition qmx (a b : Q) : Q := if Qle_bool a b then b else a.

Lemma qmx_cases : forall a b, (a <= b /\ qmx a b = b) \/ (b <= a /\ qmx a b = a).
Proof.
  intros a b. unfold qmx. destruct (Qle_bool a b) eqn:E; [left|right].
  - apply Qle_bool_iff in E. auto.
  - split; [|reflexivity]. destruct (Qlt_le_dec a b) as [H|H]; [|exact H]. apply Qlt_le_weak, Qle_bool_iff in H. congruence.
Qed.

Lemma aff_dom : forall f g a b, aff f a b -> aff g a b -> a <= b -> f a <= g a -> f b <= g b -> forall x, a <= x -> x <= b -> f x <= g x.
Proof.
  intros f g a b (c & d & F) (c' & d' & G) Hab A B x X1 X2. rewrite F, G by assumption. rewrite (F a), (G a) in A by lra. rewrite (F b), (G b) in B by lra.
  destruct (Qlt_le_dec c c'); nra.
Qed.

Lemma aff_max_dom : forall f g a b, aff f a b -> aff g a b -> a <= b ->
  (f a <= g a /\ f b <= g b) \/ (g a <= f a /\ g b <= f b) -> pl (fun x => qmx (f x) (g x)) a b.
Proof.
  intros f g a b F G Hab [[A B]|[A B]]; apply pl_one; try exact Hab.
  - pose proof (aff_dom f g a b F G Hab A B) as D. destruct G as (c & d & G). exists c, d. intros x X1 X2. specialize (D x X1 X2).
    rewrite <- G by assumption. destruct (qmx_cases (f x) (g x)) as [[_ ->]|[X ->]]; lra.
  - pose proof (aff_dom g f a b G F Hab A B) as D. destruct F as (c & d & F). exists c, d. intros x X1 X2. specialize (D x X1 X2).
    rewrite <- F by assumption. destruct (qmx_cases (f x) (g x)) as [[X ->]|[_ ->]]; lra.
Qed.

(** where two affine functions that swap their order meet *)
Lemma aff_cross : forall f g a b, aff f a b -> aff g a b -> a <= b -> f a <= g a -> g b <= f b -> exists x, a <= x /\ x <= b /\ f x == g x.
Proof.
  intros f g a b F G Hab A B.
  destruct (pl_zero (fun x => g x - f x) a b) as (x & X1 & X2 & X3); [|lra|lra|exists x; repeat split; [exact X1|exact X2|lra]].
  apply pl_one; [exact Hab|]. destruct F as (c & d & F), G as (c' & d' & G). exists (c' - c), (d' - d). intros x X1 X2. rewrite F, G by assumption. ring.
Qed.

Lemma PL_max : forall f g, PL f -> PL g -> PL (fun x => qmx (f x) (g x)).
Proof.
  intros f g Hf Hg a b Hab. pose proof (joint f g a b Hg (Hf a b Hab)) as H. clear Hab. induction H as [a b H0 F G|a c b H1 IH1 H2 IH2].
  - assert (W : forall x, a <= x -> x <= b -> f x == g x -> pl (fun x => qmx (f x) (g x)) a b).
    { intros x X1 X2 E. apply pl_cat with (c := x); apply aff_max_dom; try assumption; try (eapply aff_sub; try eassumption; lra).
      - destruct (Qlt_le_dec (f a) (g a)); [left|right]; split; lra.
      - destruct (Qlt_le_dec (f b) (g b)); [left|right]; split; lra. }
    destruct (Qlt_le_dec (f a) (g a)) as [A|A]; destruct (Qlt_le_dec (f b) (g b)) as [B|B].
    + apply aff_max_dom; try assumption. left. split; lra.
    + destruct (aff_cross f g a b F G H0 ltac:(lra) B) as (x & X1 & X2 & E). exact (W x X1 X2 E).
    + destruct (aff_cross g f a b G F H0 A ltac:(lra)) as (x & X1 & X2 & E). apply (W x X1 X2). lra.
    + apply aff_max_dom; try assumption. right. split; assumption.
  - eapply pl_cat; eassumption.
Qed.

Lemma PL_min : forall f g, PL f -> PL g -> PL (fun x => qmin2 (f x) (g x)).
Proof.
  intros f g Hf Hg. apply (PL_ext (fun x => 1 * (1 * f x + 1 * g x) + (-(1)) * qmx (f x) (g x))).
  - intros x. unfold qmin2, qmx. destruct (Qle_bool (f x) (g x)); ring.
  - apply (PL_comb 1 (-(1)) (fun x => 1 * f x + 1 * g x) (fun x => qmx (f x) (g x))); [apply PL_comb; assumption|apply PL_max; assumption].
Qed.

Lemma PL_sum : forall A (f : A -> Q -> Q) l, (forall a, In a l -> PL (f a)) -> PL (fun x => qsum (map (fun a => f a x) l)).
Proof.
  induction l as [|a l IH]; intros H; [apply (PL_const 0)|].
  apply (PL_ext (fun x => 1 * f a x + 1 * qsum (map (fun a => f a x) l))).
  - intros x. cbn [map]. rewrite qs_cons. ring.
  - apply PL_comb; [apply H; left; reflexivity|apply IH; intros b Hb; apply H; right; exact Hb].
Qed.

(** ** the largest sum of k values, as a maximum over sets *)
Fixpoint subsets (k : nat) (l : list nat) : list (list nat) :=
  match k, l with
  | O, _ => [[]]
  | S _, [] => []
  | S k', x :: r => map (cons x) (subsets k' r) ++ subsets k r
  end.

Lemma subsets_sound : forall l k A, NoDup l -> In A (subsets k l) -> NoDup A /\ incl A l /\ length A = k.
Proof.
  induction l as [|x l IH]; intros [|k] A Hn H; cbn in H; try (destruct H as [<-|[]]; repeat split; [constructor|intros y []]).
  - destruct H.
  - inversion_clear Hn. apply in_app_or in H. destruct H as [H|H].
    + apply in_map_iff in H. destruct H as (B & <- & HB). destruct (IH k B H1 HB) as (B1 & B2 & B3). split; [constructor; [|exact B1]; intros X; apply H0, B2, X|].
      split; [intros y [<-|Hy]; [left; reflexivity|right; apply B2, Hy]|cbn; lia].
    + destruct (IH (S k) A H1 H) as (B1 & B2 & B3). split; [exact B1|]. split; [intros y Hy; right; apply B2, Hy|exact B3].
Qed.

Lemma subsets_complete : forall (p : nat -> bool) l, In (filter p l) (subsets (length (filter p l)) l).
Proof.
  intros p. induction l as [|x l IH]; [left; reflexivity|]. cbn [filter]. destruct (p x); cbn [length].
  - cbn [subsets]. apply in_or_app. left. apply in_map. exact IH.
  - destruct (length (filter p l)) eqn:E; [|cbn [subsets]; apply in_or_app; right; exact IH].
    apply length_zero_iff_nil in E. rewrite E. left. reflexivity.
Qed.

Definition maxl {A} (v : A -> Q) (a0 : A) (l : list A) : Q := fold_right (fun a r => qmx (v a) r) (v a0) l.

Lemma maxl_ub : forall A (v : A -> Q) a0 l z, v a0 <= z -> (forall a, In a l -> v a <= z) -> maxl v a0 l <= z.
Proof.
  induction l as [|a l IH]; intros z H0 H; [exact H0|]. cbn [maxl fold_right]. fold (maxl v a0 l).
  specialize (IH z H0 (fun b Hb => H b (or_intror Hb))). specialize (H a (or_introl eq_refl)).
  destruct (qmx_cases (v a) (maxl v a0 l)) as [[_ ->]|[_ ->]]; assumption.
Qed.

Lemma maxl_ge : forall A (v : A -> Q) a0 l a, In a l -> v a <= maxl v a0 l.
Proof.
  induction l as [|b l IH]; intros a H; [destruct H|]. cbn [maxl fold_right]. fold (maxl v a0 l).
  destruct (qmx_cases (v b) (maxl v a0 l)) as [[X ->]|[X ->]]; destruct H as [<-|H]; try specialize (IH a H); lra.
Qed.

Lemma PL_maxl : forall A (v : A -> Q -> Q) a0 l, PL (v a0) -> (forall a, In a l -> PL (v a)) -> PL (fun x => maxl (fun a => v a x) a0 l).
Proof.
  induction l as [|a l IH]; intros H0 H; [exact H0|].
  apply (PL_max (v a) (fun x => maxl (fun a => v a x) a0 l)); [apply H; left; reflexivity|]. apply IH; [exact H0|]. intros b Hb. apply H. right. exact Hb.
Qed.

Lemma largest_maxl : forall l k, (Z.to_nat k <= length l)%nat ->
  qsum (nlargest k l) == maxl (fun A => qsum (map (fun i => nth i l 0) A)) (seq 0 (Z.to_nat k)) (subsets (Z.to_nat k) (seq 0 (length l))).
Proof.
  intros l k Hk. apply Qle_antisym.
  - destruct (largest_witness l k Hk) as (A & (A1 & A2 & A3) & ->).
    set (p := fun i => existsb (Nat.eqb i) A).
    assert (P : Permutation A (filter p (seq 0 (length l)))).
    { apply NoDup_Permutation; [exact A1|apply NoDup_filter, seq_NoDup|]. intros i. rewrite filter_In, in_seq. unfold p. rewrite existsb_exists. split.
      - intros Hi. split; [specialize (A2 i Hi); lia|]. exists i. split; [exact Hi|apply Nat.eqb_refl].
      - intros (_ & y & Hy & E). apply Nat.eqb_eq in E. subst y. exact Hy. }
    rewrite (qs_perm _ _ _ _ P). pose proof (subsets_complete p (seq 0 (length l))) as C. rewrite <- (Permutation_length P), A3 in C.
    apply (maxl_ge _ (fun A => qsum (map (fun i => nth i l 0) A))). exact C.
  - apply maxl_ub.
    + apply largest_sum. split; [apply seq_NoDup|]. split; [intros i Hi; apply in_seq in Hi; lia|apply seq_length].
    + intros A HA. destruct (subsets_sound _ _ _ (seq_NoDup _ _) HA) as (B1 & B2 & B3). apply largest_sum.
      split; [exact B1|]. split; [|exact B3]. intros i Hi. specialize (B2 i Hi). apply in_seq in B2. lia.
Qed.

(** ** the functions of G-FRL are piecewise linear *)
Lemma PL_point : forall m t, PL (fun L => rel_point L m t).
Proof.
  intros m t. apply (PL_ext (fun L => inject_Z (t_deadline t) * L + (- zdivq ((m - 1) * t_cost t) m))); [|apply PL_lin].
  intros L. unfold rel_point. ring.
Qed.

Lemma PL_s : forall m ts, PL (fun L => gs_val L ts m).
Proof.
  intros m ts. unfold gs_val. destruct ts as [|t ts]; [apply (PL_const 0)|]. cbn [map].
  assert (G : forall l f, PL f -> PL (fun L => fold_left qmin2 (map (rel_point L m) l) (f L))).
  { induction l as [|a l IH]; intros f Hf; [exact Hf|]. cbn [map fold_left].
    apply (IH (fun L => qmin2 (f L) (rel_point L m a))). apply PL_min; [exact Hf|apply PL_point]. }
  apply (G ts (fun L => rel_point L m t)), PL_point.
Qed.

Lemma PL_Si : forall m ts t, PL (fun L => Si_val t L ts m).
Proof.
  intros m ts t.
  apply (PL_ext (fun L => qmx (1 * inject_Z (t_cost t) + (- zdivq (t_cost t) (t_period t)) * (1 * rel_point L m t + (-(1)) * gs_val L ts m)) 0)).
  - intros L. unfold Si_val. cbv zeta.
    set (raw := inject_Z (t_cost t) - zdivq (t_cost t) (t_period t) * (L * inject_Z (t_deadline t) - zdivq ((m - 1) * t_cost t) m - gs_val L ts m)).
    assert (E : 1 * inject_Z (t_cost t) + (- zdivq (t_cost t) (t_period t)) * (1 * rel_point L m t + (-(1)) * gs_val L ts m) == raw) by (unfold raw, rel_point; ring).
    destruct (qmx_cases (1 * inject_Z (t_cost t) + (- zdivq (t_cost t) (t_period t)) * (1 * rel_point L m t + (-(1)) * gs_val L ts m)) 0) as [[X ->]|[X ->]];
      destruct (qltb raw 0) eqn:Q; try apply qltb_iff in Q; try apply qltb_false in Q; lra.
  - apply (PL_max _ (fun _ => 0)); [|apply PL_const].
    apply (PL_comb 1 (- zdivq (t_cost t) (t_period t)) (fun _ => inject_Z (t_cost t))); [apply PL_const|].
    apply (PL_comb 1 (-(1))); [apply PL_point|apply PL_s].
Qed.

Lemma PL_Gi : forall m ts t, PL (fun L => Gi_val t L ts m).
Proof.
  intros m ts t.
  apply (PL_ext (fun L => 1 * (zdivq (t_cost t) (t_period t) * gs_val L ts m + 1 * (inject_Z (t_cost t) - zdivq (t_cost t) m * zdivq (t_cost t) (t_period t))) + (-(1)) * Si_val t L ts m)).
  - intros L. unfold Gi_val. ring.
  - apply (PL_comb 1 (-(1)) (fun L => zdivq (t_cost t) (t_period t) * gs_val L ts m + 1 * (inject_Z (t_cost t) - zdivq (t_cost t) m * zdivq (t_cost t) (t_period t))));
      [|apply PL_Si]. apply (PL_comb _ 1 (fun L => gs_val L ts m) (fun _ => inject_Z (t_cost t) - zdivq (t_cost t) m * zdivq (t_cost t) (t_period t))); [apply PL_s|apply PL_const].
Qed.

Lemma PL_func : forall m ts, (Z.to_nat (Qceiling (ts_utilization ts None) - 1) <= length ts)%nat -> PL (fun L => func_val L ts m).
Proof.
  intros m ts HK. set (K := Z.to_nat (Qceiling (ts_utilization ts None) - 1)) in *.
  set (g := fun A L => qsum (map (fun i => nth i (map (fun t => Gi_val t L ts m) ts) 0) A)).
  assert (Hg : forall A, PL (g A)).
  { intros A. unfold g. apply (PL_sum _ (fun i L => nth i (map (fun t => Gi_val t L ts m) ts) 0)). intros i _. destruct (Nat.lt_ge_cases i (length ts)) as [Hi|Hi].
    - apply (PL_ext (fun L => Gi_val (nth i ts dtask) L ts m)); [|apply PL_Gi]. intros L.
      rewrite (nth_indep _ 0 (Gi_val dtask L ts m)) by (rewrite map_length; exact Hi). rewrite (map_nth (fun t => Gi_val t L ts m)). reflexivity.
    - apply (PL_ext (fun _ => 0)); [|apply PL_const]. intros L. rewrite nth_overflow by (rewrite map_length; exact Hi). reflexivity. }
  apply (PL_ext (fun L => 1 * (1 * maxl (fun A => g A L) (seq 0 K) (subsets K (seq 0 (length ts))) + 1 * qsum (map (fun t => Si_val t L ts m) ts)) + (- inject_Z m) * gs_val L ts m)).
  - intros L. unfold func_val, G_val, S_val. rewrite largest_maxl by (rewrite map_length; exact HK). rewrite map_length. fold K. unfold g. ring.
  - apply (PL_comb 1 (- inject_Z m) (fun L => 1 * maxl (fun A => g A L) (seq 0 K) (subsets K (seq 0 (length ts))) + 1 * qsum (map (fun t => Si_val t L ts m) ts))); [|apply PL_s].
    apply PL_comb; [apply PL_maxl; [apply Hg|intros A _; apply Hg]|]. apply (PL_sum _ (fun t L => Si_val t L ts m)). intros t _. apply PL_Si.
Qed.
