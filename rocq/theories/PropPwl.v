(** Property theorems C27: monotonic piece-wise linear overhead functions. *)
From Coq Require Import ZArith QArith List Bool Lia.
From Verif Require Import ModelPwl SpecPwl ProofPwl.
Import ListNotations.
Open Scope Q_scope.

(** every non-empty list of samples yields a function *)
Theorem C27_defined : forall pts, pts <> [] -> exists f, monotonic_pwlin pts = Some f.
Proof. exact pwlin_defined. Qed.
Print Assumptions C27_defined.

(** it never decreases, on the whole axis, whatever the sample values *)
Theorem C27_nondecreasing : forall pts f x y, increasing pts -> monotonic_pwlin pts = Some f -> x <= y -> overhead_call f x <= overhead_call f y.
Proof. exact pwlin_mono. Qed.
Print Assumptions C27_nondecreasing.

(** between two neighbouring samples it interpolates the running maxima *)
Theorem C27_interpolates : forall pts f i p q m1 m2 x, increasing pts -> Forall (fun s => 0 <= snd s) pts -> monotonic_pwlin pts = Some f ->
  nth_error pts i = Some p -> nth_error pts (S i) = Some q -> running_max pts i m1 -> running_max pts (S i) m2 ->
  fst p <= x -> x <= fst q -> interpolated (fst p) m1 (fst q) m2 x (overhead_call f x).
Proof. exact pwlin_interp. Qed.
Print Assumptions C27_interpolates.

(** at a sample it is the running maximum *)
Theorem C27_at_samples : forall pts f i p m, increasing pts -> Forall (fun s => 0 <= snd s) pts -> monotonic_pwlin pts = Some f ->
  nth_error pts i = Some p -> running_max pts i m -> overhead_call f (fst p) == m.
Proof. exact pwlin_sample. Qed.
Print Assumptions C27_at_samples.

Theorem C27_dominates : forall pts f p, increasing pts -> Forall (fun s => 0 <= snd s) pts -> monotonic_pwlin pts = Some f ->
  In p pts -> snd p <= overhead_call f (fst p).
Proof. exact pwlin_dominates. Qed.
Print Assumptions C27_dominates.

(** no non-decreasing function above the samples is smaller at a sample *)
Theorem C27_least : forall pts f g p, increasing pts -> Forall (fun s => 0 <= snd s) pts -> monotonic_pwlin pts = Some f ->
  (forall x y, x <= y -> g x <= g y) -> (forall q, In q pts -> snd q <= g (fst q)) -> In p pts -> overhead_call f (fst p) <= g (fst p).
Proof. exact pwlin_least. Qed.
Print Assumptions C27_least.

(** non-decreasing samples are reproduced *)
Theorem C27_exact_on_monotone_samples : forall pts f p i, increasing pts -> Forall (fun s => 0 <= snd s) pts -> monotonic_pwlin pts = Some f ->
  (forall k a b, nth_error pts k = Some a -> nth_error pts (S k) = Some b -> snd a <= snd b) ->
  nth_error pts i = Some p -> overhead_call f (fst p) == snd p.
Proof. exact pwlin_increasing_samples. Qed.
Print Assumptions C27_exact_on_monotone_samples.

(** the filtered points pass is_monotonic *)
Theorem C27_filtered_monotonic : forall pts l, increasing pts -> make_monotonic pts = Some l -> is_monotonic l = Some true.
Proof. exact make_monotonic_ok. Qed.
Print Assumptions C27_filtered_monotonic.

Definition ex_pts : list (Q * Q) := [(1, 2); (2, 2); (3, 1); (5, 4); (6, 3); (8, 4); (9, 10)].

Lemma ex_increasing : increasing ex_pts.
Proof.
  intros i p q Hp Hq. do 7 (destruct i; [cbn in Hp, Hq; try discriminate; injection Hp as <-; injection Hq as <-; reflexivity|]).
  destruct i; discriminate.
Qed.

(** two flat stretches, one point of which is dropped, and both ends *)
Example C27_case : increasing ex_pts /\ Forall (fun s => 0 <= snd s) ex_pts /\
  make_monotonic ex_pts = Some [(1, 2); (3, 2); (5, 4); (8, 4); (9, 10)] /\
  exists f, monotonic_pwlin ex_pts = Some f /\ overhead_call f (7 # 1) == 4 /\ overhead_call f (4 # 1) == 3 /\ overhead_call f 10 == 16 /\ overhead_call f 0 == 2.
Proof.
  split; [exact ex_increasing|]. split; [repeat constructor; discriminate|]. split; [reflexivity|].
  eexists. split; [reflexivity|]. repeat split; reflexivity.
Qed.

(** Repeated positions: the larger value is lost, so that the function is below a sample. *)
Theorem C27_repeated_positions_refuted : exists pts f p, Forall (fun s => 0 <= snd s) pts /\
  (forall i a b, nth_error pts i = Some a -> nth_error pts (S i) = Some b -> fst a <= fst b) /\
  monotonic_pwlin pts = Some f /\ In p pts /\ overhead_call f (fst p) < snd p /\ forall x, 1 <= x -> overhead_call f x < 5.
Proof.
  exists [(0, 1); (1, 2); (1, 5)], (OPwl [(0, 1); (1, 2); (1, 5)]), (1, 5).
  split; [repeat constructor; discriminate|]. split.
  { intros i a b Ha Hb. do 3 (destruct i; [cbn in Ha, Hb; try discriminate; injection Ha as <-; injection Hb as <-; discriminate|]). destruct i; discriminate. }
  split; [reflexivity|]. split; [right; right; left; reflexivity|]. split; [reflexivity|].
  intros x Hx. cbn [overhead_call]. rewrite pwl_peval. cbn [peval fst snd].
  destruct (Qle_bool x 1) eqn:E.
  - apply Qle_bool_iff in E. assert (X : x == 1) by (apply Qle_antisym; assumption).
    rewrite (py_max_eq 0 _ (line (0, 1) (1, 2) 1) (line_proper _ _ _ _ X)). reflexivity.
  - assert (S : slope (1, 2) (1, 5) == 0) by reflexivity.
    rewrite (py_max_eq 0 _ 2); [reflexivity|]. unfold line. rewrite S. cbn [snd]. ring.
Qed.
Print Assumptions C27_repeated_positions_refuted.

(** no samples: an exception *)
Theorem C27_empty_refuted : monotonic_pwlin [] = None.
Proof. reflexivity. Qed.
Print Assumptions C27_empty_refuted.
