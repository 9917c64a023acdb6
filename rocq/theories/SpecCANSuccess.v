(** Specification for the success probability of replicated CAN messages. *)
From Coq Require Import Reals ZArith List Bool Arith.
From Verif Require Import Base ModelCAN SpecCANProb.
Import ListNotations.
Local Open Scope R_scope.

(** the expected value of [f] over the outcomes of [n] independent trials that each
    come out [true] with probability [p] *)
Fixpoint expect (p : R) (n : nat) (f : list bool -> R) : R :=
  match n with
  | O => f []
  | S n => p * expect p n (fun l => f (true :: l)) + (1 - p) * expect p n (fun l => f (false :: l))
  end.

Definition count (x : bool) (l : list bool) : nat := length (filter (Bool.eqb x) l).

(** the probability of an event of this kind *)
Definition probability (p : R) (n : nat) (event : list bool -> bool) : R :=
  expect p n (fun l => if event l then 1 else 0).

(** the number of replicas that are not omitted and in time with [f] faults;
    [w x f]: the worst-case transmission time of replica [x] *)
Definition timely (w : cmsg -> nat -> Z) (replicas : list cmsg) (omitted : list bool) (f : nat) : nat :=
  length (filter (fun x => negb (snd x) && (w (fst x) f + cm_jitter (fst x) <=? cm_deadline (fst x))%Z) (combine replicas omitted)).

(** the correct ones are a strict majority of the timely replicas (sync) or of all
    [r] replicas (async); [corrupted] tells which of the timely ones are corrupted *)
Definition majority (sync : bool) (r : nat) (corrupted : list bool) : bool :=
  Nat.ltb (if sync then length corrupted else r) (2 * count false corrupted).

(** the probability of success if each replica is omitted with probability [pom] and
    corrupted with probability [pc], and on average [lam] faults occur; only fault
    numbers below [bound] are considered *)
Definition success (w : cmsg -> nat -> Z) (replicas : list cmsg) (sync : bool) (pom pc lam : R) (bound : nat) : R :=
  let r := length replicas in
  expect pom r (fun omitted =>
    rsum (fun f => poisson lam f * probability pc (timely w replicas omitted f) (majority sync r)) (seq 0 bound)).

(** the mean of the number of activations up to and including the first failure, if
    each activation succeeds independently with probability [p] *)
Definition mean_to_failure (p mtf : R) : Prop := infinite_sum (fun k => INR (S k) * (p ^ k * (1 - p))) mtf.

(** [o] is obtained from [l] by leaving out items *)
Inductive subseq {A} : list A -> list A -> Prop :=
| sub_nil : subseq [] []
| sub_skip x o l : subseq o l -> subseq o (x :: l)
| sub_keep x o l : subseq o l -> subseq (x :: o) (x :: l).
