(** Independent specification for serialization: which values survive a round
    trip, and when two tasks agree.  Only the record types of the model are used. *)
From Coq Require Import ZArith QArith List Bool String Ascii.
From Verif Require Import ModelSerialize.
Import ListNotations.
Open Scope Z_scope.

(** A name starts with a letter other than the first letters of the floating
    point literals inf and nan, in either case. *)
Definition name_like (s : string) : bool :=
  match s with
  | EmptyString => false
  | String a _ =>
      let n := nat_of_ascii a in
      ((Nat.leb 65 n && Nat.leb n 90) || (Nat.leb 97 n && Nat.leb n 122)) && negb (Ascii.eqb a "i" || Ascii.eqb a "I" || Ascii.eqb a "n" || Ascii.eqb a "N")
  end.

(** an integer that is a binary64 number: at most 53 significant bits *)
Definition binary64 (z : Z) : Prop := exists m e, 0 <= e /\ Z.abs m < 2 ^ 53 /\ z = m * 2 ^ e /\ Z.abs z < 2 ^ 1024.

(** integers that a binary64 number represents exactly, and names *)
Definition plain (v : pyval) : Prop :=
  match v with VInt z => binary64 z | VStr s => name_like s = true | _ => False end.

Definition plain_opt (o : option pyval) : Prop := match o with Some v => plain v | None => True end.

(** no section is nested in a section of the same resource *)
Inductive plain_cs : list pyval -> xcs -> Prop :=
  plain_cs_intro : forall held res len nested, plain res -> plain len -> ~ In res held ->
    (forall c, In c nested -> plain_cs (res :: held) c) -> plain_cs held (XCS res len nested).

(** A task as the library produces it: integer parameters, sets and
    dictionaries without duplicates, requirements filed under their own id. *)
Record plain_task (t : xtask) : Prop := {
  pt_cost : plain (x_cost t);
  pt_period : plain (x_period t);
  pt_deadline : plain (x_deadline t);
  pt_id : x_id t = VNone \/ plain (x_id t);
  pt_partition : plain_opt (x_partition t);
  pt_wss : plain_opt (x_wss t);
  pt_resmodel : forall l, x_resmodel t = Some l -> NoDup (map fst l) /\ forall k r, In (k, r) l -> q_id r = k /\ plain k;
  pt_affinity : forall l, x_affinity t = Some l -> NoDup l /\ forall v, In v l -> plain v;
  pt_cs : forall l, x_cs t = Some l -> forall c, In c l -> plain_cs [] c }.

(** equal counts and lengths; the priority is not stored *)
Definition same_request (r r' : xreq) : Prop :=
  q_id r' = q_id r /\ q_writes r' = q_writes r /\ q_wlen r' = q_wlen r /\ q_reads r' = q_reads r /\ q_rlen r' = q_rlen r /\ q_prio r' = 0.

(** [t'] agrees with [t] in all that the format stores. *)
Record same_task (t t' : xtask) : Prop := {
  st_cost : x_cost t' = x_cost t;
  st_period : x_period t' = x_period t;
  st_deadline : x_deadline t' = x_deadline t;
  st_id : x_id t' = x_id t;
  st_partition : x_partition t' = x_partition t;
  st_wss : x_wss t' = x_wss t;
  st_response : x_response_time t' = None;
  st_resmodel : match x_resmodel t, x_resmodel t' with
                | None, None => True
                | Some l, Some l' => NoDup (map fst l') /\ map fst l' = map fst l /\
                    forall k r', In (k, r') l' <-> exists r, In (k, r) l /\ same_request r r'
                | _, _ => False
                end;
  st_affinity : match x_affinity t, x_affinity t' with
                | None, None | Some [], None => True
                | Some (a :: l), Some l' => NoDup l' /\ forall v, In v l' <-> In v (a :: l)
                | _, _ => False
                end;
  st_cs : x_cs t' = x_cs t }.

(** numeric parameters for which utilization and density are defined *)
Definition measurable (t : xtask) : Prop :=
  exists c p d, x_cost t = VInt c /\ x_period t = VInt p /\ x_deadline t = VInt d /\ p <> 0 /\ Z.min p d <> 0.

(** [s] denotes the rational number [q]: "a" or "a/b". *)
Definition denotes (s : string) (q : Q) : Prop :=
  exists a, (py_int s = Some a /\ q == inject_Z a)%Q \/
  exists b s1 s2, s = (s1 ++ "/" ++ s2)%string /\ py_int s1 = Some a /\ py_int s2 = Some (Zpos b) /\ (q == a # b)%Q.

(** sums of cost over period, and over the smaller of period and deadline *)
Fixpoint sum_util (l : list (Z * Z * Z)) : Q :=
  match l with [] => 0 | (c, p, _) :: r => (inject_Z c / inject_Z p + sum_util r)%Q end.
Fixpoint sum_density (l : list (Z * Z * Z)) : Q :=
  match l with [] => 0 | (c, p, d) :: r => (inject_Z c / inject_Z (Z.min p d) + sum_density r)%Q end.

(** the parameters of tasks *)
Definition has_params (t : xtask) (q : Z * Z * Z) : Prop :=
  x_cost t = VInt (fst (fst q)) /\ x_period t = VInt (snd (fst q)) /\ x_deadline t = VInt (snd q).
