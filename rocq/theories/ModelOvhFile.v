(** Model of reading overheads from files (schedcat/overheads/model.py:42-70, 93-122)
    on top of load_columns (ModelCSV) and monotonic_pwlin (ModelPwl).  Definitions
    only.  [parse] is float() and [strip] is strip(); an object is a function from
    its attributes. *)
From Coq Require Import ZArith QArith List Bool String.
From Verif Require Import Base ModelPwl ModelCSV.
Import ListNotations.
Open Scope string_scope.

(** Overheads.FIELD_MAPPING (overheads/model.py:12-28) *)
Definition FIELD_MAPPING : list (string * string) :=
  [("IPI-LATENCY", "ipi_latency"); ("SCHEDULE", "schedule"); ("RELEASE", "release"); ("CXS", "ctx_switch"); ("TICK", "tick");
   ("RELEASE-LATENCY", "release_latency"); ("LOCK", "lock"); ("UNLOCK", "unlock"); ("READ-LOCK", "read_lock");
   ("READ-UNLOCK", "read_unlock"); ("SYSCALL-IN", "syscall_in"); ("SYSCALL-OUT", "syscall_out")].

(** CacheDelay.MAPPING (overheads/model.py:77-78); the index of mem_hierarchy and the
    attribute of the same name hold the same object *)
Definition CACHE_MAPPING : list (string * string) := [("MEM", "MEM"); ("L1", "L1"); ("L2", "L2"); ("L3", "L3")].

(** self.__dict__[field] = v (overheads/model.py:53, 61) *)
Definition set_field (o : string -> overhead) (field : string) (v : overhead) : string -> overhead :=
  fun f => if String.eqb f field then v else o f.

(** const(0) for some fields (overheads/model.py:35-36, 52-53) *)
Definition zero_fields (fields : list (string * string)) (o : string -> overhead) : string -> overhead :=
  fold_left (fun o nf => set_field o (snd nf) (OLinear (const 0))) fields o.

(** the loops over the fields (overheads/model.py:55-63, 114-121).  None: an
    exception; piece_wise_linear is not imported (overheads/model.py:3-4), so that
    its use raises NameError. *)
Fixpoint load_fields (by_name : list (string * list Q)) (xs : list Q) (scale : option Z) (non_decreasing : bool)
    (fields : list (string * string)) (o : string -> overhead) : option (string -> overhead) :=
  match fields with
  | [] => Some o
  | (name, field) :: r =>
      match dict_get String.eqb name by_name with
      | None => load_fields by_name xs scale non_decreasing r o
      | Some ys =>
          let points := combine xs ys in
          let points := match scale with Some num_cpus => map (fun p => (inject_Z num_cpus * fst p, snd p)%Q) points | None => points end in
          if non_decreasing
          then match monotonic_pwlin points with
               | None => None
               | Some f => load_fields by_name xs scale non_decreasing r (set_field o field f)
               end
          else None
      end
  end.

(** Overheads.load_approximations (overheads/model.py:42-63); [scale] is num_cpus if
    per_cpu_task_counts is set *)
Definition load_approximations (parse : string -> option Q) (strip : string -> string) (order : list (string * nat) -> list (string * nat))
    (rows : list (list string)) (non_decreasing : bool) (custom_fields : list (string * string)) (scale : option Z)
    (o : string -> overhead) : option (string -> overhead) :=
  match load_columns String.eqb strip parse true order rows with
  | Loaded _ by_name _ =>
      match dict_get String.eqb "TASK-COUNT" by_name with
      | None => None
      | Some xs => load_fields by_name xs scale non_decreasing (FIELD_MAPPING ++ custom_fields)%list (zero_fields custom_fields o)
      end
  | _ => None
  end.

(** Overheads.from_file with Overheads.__init__ (overheads/model.py:8-10, 29-36, 65-70);
    attributes that are not fields are left out *)
Definition overheads_from_file (parse : string -> option Q) (strip : string -> string) (order : list (string * nat) -> list (string * nat))
    (rows : list (list string)) (non_decreasing : bool) (custom_fields : list (string * string)) (scale : option Z)
  : option (string -> overhead) :=
  load_approximations parse strip order rows non_decreasing custom_fields scale (fun _ => OLinear (const 0)).

(** CacheDelay.from_file with CacheDelay.__init__ (overheads/model.py:80-83, 106-122) *)
Definition cache_from_file (parse : string -> option Q) (strip : string -> string) (order : list (string * nat) -> list (string * nat))
    (rows : list (list string)) (non_decreasing : bool) : option (string -> overhead) :=
  match load_columns String.eqb strip parse true order rows with
  | Loaded _ by_name _ =>
      match dict_get String.eqb "WSS" by_name with
      | None => None
      | Some xs => load_fields by_name xs None non_decreasing CACHE_MAPPING (fun _ => OLinear (const 0))
      end
  | _ => None
  end.

(** CacheDelay.max_cost (overheads/model.py:93-97) *)
Definition max_cost (o : string -> overhead) (working_set_size : Q) : Q :=
  fold_left (fun m nf => py_max m (overhead_call (o (snd nf)) working_set_size)) (tl CACHE_MAPPING) (overhead_call (o "MEM") working_set_size).
