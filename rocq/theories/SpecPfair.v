(** Specification for quantum-based optimal scheduling: every legal sporadic job
    sequence can be scheduled on [m] processors in unit quanta such that all
    deadlines up to an arbitrary horizon are met. *)
From Coq Require Import ZArith List.
From Verif Require Import SpecUni SpecQPA SpecGlobal.
Open Scope Z_scope.

Definition quantum_feasible (ts : list etask) (m : nat) : Prop :=
  forall s, legal_edf ts s -> forall horizon : nat, exists sc, gvalid (length ts) m s sc /\
  forall j e, nth_error ts (fst j) = Some e -> Z.of_nat (arr s (fst j) (snd j)) + e_deadline e <= Z.of_nat horizon ->
  responds s sc j (e_deadline e).
