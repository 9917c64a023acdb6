(** Model of schedcat/model/serialize.py.  Definitions only.
    Simplifications: files are element trees (the text that
    xml.etree.ElementTree writes and parses is trusted); Python values are None,
    integers, strings and infinite floats; of the strings that float() accepts
    only decimal integer literals and the infinities are recognised (so that
    "1.5", "1e3", "nan", "+5" or " 5 " count as text here). *)
From Coq Require Import ZArith QArith List Bool String Ascii DecimalString DecimalZ.
From Verif Require Import Base ModelTasks.
Import ListNotations.
Open Scope Z_scope.

(** the values of attributes (serialize.py:11-21,28) *)
Inductive pyval := VNone | VInt (z : Z) | VStr (s : string) | VInf (negative : bool).

(** str of an integer (serialize.py:28,88,196,199,210) *)
Definition str_int (z : Z) : string := NilZero.string_of_int (Z.to_int z).

(** str (serialize.py:28,88,210) *)
Definition py_str (v : pyval) : string := (
  match v with
  | VNone => "None"
  | VInt z => str_int z
  | VStr s => s
  | VInf b => if b then "-inf" else "inf"
  end)%string.

(** int of a string (serialize.py:115-118); None: ValueError *)
Definition py_int (s : string) : option Z := option_map Z.of_int (NilZero.int_of_string s).

(** the binary64 number nearest to an integer, ties to even, before overflow
    (float(x) in serialize.py:17) *)
Definition round53 (n : Z) : Z :=
  let a := Z.abs n in
  if a <? 2 ^ 53 then n
  else
    let e := Z.log2 a - 52 in
    let q := a / 2 ^ e in
    let r := a mod 2 ^ e in
    let half := 2 ^ (e - 1) in
    let q' := if r <? half then q else if half <? r then q + 1 else if Z.even q then q else q + 1 in
    Z.sgn n * (q' * 2 ^ e).

(** maybe_int of a string: float, then int if integral (serialize.py:13-19) *)
Definition maybe_int_str (s : string) : pyval :=
  match py_int s with
  | Some n => let x := round53 n in if Z.abs x <? 2 ^ 1024 then VInt x else VInf (x <? 0)
  | None => if String.eqb s "inf" then VInf false else if String.eqb s "-inf" then VInf true else VStr s
  end.

(** maybe_int (serialize.py:11-21) *)
Definition maybe_int (v : pyval) : pyval := match v with VStr s => maybe_int_str s | _ => v end.

(** An element of a tree: ET.Element (serialize.py:40,54,67,189,206) *)
Inductive elem := Elem (tag : string) (attrs : list (string * string)) (kids : list elem).

(** the tag of an element (serialize.py:244) *)
Definition el_tag (e : elem) : string := match e with Elem t _ _ => t end.
(** its attributes (serialize.py:223) *)
Definition el_attrs (e : elem) : list (string * string) := match e with Elem _ a _ => a end.
(** its children (serialize.py:138) *)
Definition el_kids (e : elem) : list elem := match e with Elem _ _ k => k end.

(** lookup in and update of an attribute dictionary (serialize.py:28,155) *)
Fixpoint assoc {A} (k : string) (l : list (string * A)) : option A :=
  match l with
  | [] => None
  | (k', v) :: r => if String.eqb k k' then Some v else assoc k r
  end.

(** dictionary update (serialize.py:28,224) *)
Fixpoint assoc_set {A} (k : string) (v : A) (l : list (string * A)) : list (string * A) :=
  match l with
  | [] => [(k, v)]
  | (k', v') :: r => if String.eqb k k' then (k, v) :: r else (k', v') :: assoc_set k v r
  end.

(** tag.set (serialize.py:28,88,192-199,210) *)
Definition el_set (e : elem) (k v : string) : elem := Elem (el_tag e) (assoc_set k v (el_attrs e)) (el_kids e).
(** node.get with default None (serialize.py:155,163-164) *)
Definition el_get (e : elem) (k : string) : option string := assoc k (el_attrs e).
(** append, ET.SubElement (serialize.py:34,42,56,202) *)
Definition el_append (e : elem) (k : elem) : elem := Elem (el_tag e) (el_attrs e) (el_kids e ++ [k]).
(** node.findall (serialize.py:104,125,145,216,225) *)
Definition el_findall (e : elem) (t : string) : list elem := filter (fun k => String.eqb (el_tag k) t) (el_kids e).
(** node.find (serialize.py:101,122,142,221) *)
Definition el_find (e : elem) (t : string) : option elem := List.find (fun k => String.eqb (el_tag k) t) (el_kids e).

(** ResourceRequirement (resources.py:4-12) *)
Record xreq := XReq { q_id : pyval; q_writes : Z; q_wlen : Z; q_reads : Z; q_rlen : Z; q_prio : Z }.

(** CriticalSection (resources.py:61-68), without the back pointer outer *)
Inductive xcs := XCS (res : pyval) (len : pyval) (nested : list xcs).

(** SporadicTask with the optional attributes that serialize.py:66-93 looks for:
    a dictionary of requirements, a set of cpus (both as lists in the order of
    iteration) and a list of critical sections *)
Record xtask := XTask {
  x_cost : pyval; x_period : pyval; x_deadline : pyval; x_id : pyval;
  x_partition : option pyval; x_response_time : option pyval; x_wss : option pyval;
  x_resmodel : option (list (pyval * xreq)); x_affinity : option (list pyval); x_cs : option (list xcs) }.

(** == on attribute values (tasks.py:29, resources.py:89) *)
Definition pyval_eqb (a b : pyval) : bool :=
  match a, b with
  | VNone, VNone => true
  | VInt x, VInt y => x =? y
  | VStr x, VStr y => String.eqb x y
  | VInf x, VInf y => Bool.eqb x y
  | _, _ => false
  end.

(** ** Writing *)

(** set_attribute (serialize.py:23-28); None: the object lacks the attribute *)
Definition set_attribute (e : elem) (k : string) (v : option pyval) : elem :=
  match v with Some v => el_set e k (py_str v) | None => e end.

(** res_requirement (serialize.py:38-50) *)
Definition res_requirement (r : xreq) : elem :=
  let e := Elem "requirement" [] [] in
  let e := set_attribute e "res_id" (Some (q_id r)) in
  let e := set_attribute e "max_reads" (Some (VInt (q_reads r))) in
  let e := set_attribute e "max_writes" (Some (VInt (q_writes r))) in
  let e := set_attribute e "max_read_length" (Some (VInt (q_rlen r))) in
  set_attribute e "max_write_length" (Some (VInt (q_wlen r))).

(** nested_res_requirement (serialize.py:52-64) *)
Fixpoint nested_res_requirement (c : xcs) : elem :=
  match c with
  | XCS res len nested =>
      let e := Elem "critical_section" [] [] in
      let e := set_attribute e "res_id" (Some res) in
      let e := set_attribute e "length" (Some len) in
      Elem (el_tag e) (el_attrs e) (el_kids e ++ map nested_res_requirement nested)
  end.

(** xcpu (serialize.py:87-88) *)
Definition cpu_elem (cpu : pyval) : elem := el_set (Elem "cpu" [] []) "id" (py_str cpu).

(** subtag_for_attribute followed by the loop that fills the subtag
    (serialize.py:79-82,84-88,90-93) *)
Definition subtag {A} (e : elem) (tag : string) (l : option (list A)) (f : A -> elem) : elem :=
  match l with None => e | Some l => el_append e (Elem tag [] (map f l)) end.

(** task (serialize.py:66-97) *)
Definition task_elem (t : xtask) : elem :=
  let e := Elem "task" [] [] in
  let e := match x_id t with VNone => e | v => set_attribute e "id" (Some v) end in
  let e := set_attribute e "period" (Some (x_period t)) in
  let e := set_attribute e "wcet" (Some (x_cost t)) in
  let e := if negb (pyval_eqb (x_deadline t) (x_period t)) then set_attribute e "deadline" (Some (x_deadline t)) else e in
  let e := set_attribute e "partition" (x_partition t) in
  let e := set_attribute e "response_time" (x_response_time t) in
  let e := set_attribute e "wss" (x_wss t) in
  let e := subtag e "resources" (x_resmodel t) (fun kr => res_requirement (snd kr)) in
  let e := subtag e "affinity" (x_affinity t) cpu_elem in
  subtag e "critical_sections" (x_cs t) nested_res_requirement.

(** the numeric parameters of a task (tasks.py:34-44); None: TypeError *)
Definition int_params (t : xtask) : option task :=
  match x_cost t, x_period t, x_deadline t with
  | VInt c, VInt p, VInt d => Some (Task c p d)
  | _, _, _ => None
  end.

(** collect the results, None if one failed (serialize.py:125,216,225) *)
Fixpoint all_some {A} (l : list (option A)) : option (list A) :=
  match l with
  | [] => Some []
  | None :: _ => None
  | Some a :: r => option_map (cons a) (all_some r)
  end.

(** str of a Fraction or of the integer 0 (serialize.py:193-194) *)
Definition str_q (q : Q) : string :=
  let r := Qred q in
  if (Qden r =? 1)%positive then str_int (Qnum r) else (str_int (Qnum r) ++ "/" ++ str_int (Zpos (Qden r)))%string.

(** taskset (serialize.py:188-203).  [float_str] is str of a float, whose digits
    are not modelled.  None: TypeError or ZeroDivisionError. *)
Definition taskset_elem (float_str : Q -> string) (ts : list xtask) : option elem :=
  match all_some (map int_params ts) with
  | None => None
  | Some its =>
      if forallb (fun t => negb (t_period t =? 0) && negb (Z.min (t_period t) (t_deadline t) =? 0)) its
      then
        let prop := Elem "properties" [] [] in
        let prop := el_set prop "utilization" (float_str (ts_utilization its None)) in
        let prop := el_set prop "utilization_q" (str_q (ts_utilization its None)) in
        let prop := el_set prop "density_q" (str_q (ts_density its)) in
        let prop := el_set prop "density" (float_str (ts_density its)) in
        let prop := el_set prop "count" (str_int (Z.of_nat (List.length ts))) in
        let hp := hyperperiod its in
        let prop := if hp =? 0 then prop else el_set prop "hyperperiod" (str_int hp) in
        Some (Elem "taskset" [] (prop :: map task_elem ts))
      else None
  end.

(** testpoint (serialize.py:205-213) *)
Definition testpoint_elem (float_str : Q -> string) (tss : list (list xtask)) (params : list (string * pyval)) : option elem :=
  let config := fold_left (fun e kv => el_set e (fst kv) (py_str (snd kv))) params (Elem "config" [] []) in
  match all_some (map (taskset_elem float_str) tss) with
  | None => None
  | Some l => Some (Elem "testpoint" [] (config :: l))
  end.

(** ** Reading *)

(** maybe_int(node.get(k, default)) (serialize.py:105,114,132-133,163-164) *)
Definition get_maybe (e : elem) (k : string) (default : pyval) : pyval :=
  maybe_int (match el_get e k with Some s => VStr s | None => default end).

(** int(node.get(k, default)) (serialize.py:115-118) *)
Definition get_int (e : elem) (k : string) (default : Z) : option Z :=
  match el_get e k with Some s => py_int s | None => Some default end.

(** set.add (serialize.py:107) *)
Definition set_add (l : list pyval) (v : pyval) : list pyval := if existsb (pyval_eqb v) l then l else l ++ [v].

(** parse_affinity (serialize.py:100-110) *)
Definition parse_affinity (node : elem) : option (list pyval) :=
  match el_find node "affinity" with
  | None => None
  | Some aff =>
      Some (fold_left (fun l n => match get_maybe n "id" VNone with VNone => l | cpu => set_add l cpu end) (el_findall aff "cpu") [])
  end.

(** parse_request (serialize.py:112-119); None: ValueError *)
Definition parse_request (e : elem) : option xreq :=
  match get_int e "max_writes" 1, get_int e "max_write_length" 1, get_int e "max_reads" 0, get_int e "max_read_length" 0 with
  | Some w, Some wl, Some r, Some rl => Some (XReq (get_maybe e "res_id" (VInt 0)) w wl r rl 0)
  | _, _, _, _ => None
  end.

(** assignment to a key of a dictionary of requirements (serialize.py:126) *)
Fixpoint dict_set (k : pyval) (r : xreq) (l : list (pyval * xreq)) : list (pyval * xreq) :=
  match l with
  | [] => [(k, r)]
  | (k', r') :: rest => if pyval_eqb k k' then (k', r) :: rest else (k', r') :: dict_set k r rest
  end.

(** parse_resmodel (serialize.py:121-129); outer None: ValueError *)
Definition parse_resmodel (node : elem) : option (option (list (pyval * xreq))) :=
  match el_find node "resources" with
  | None => Some None
  | Some rm =>
      match all_some (map parse_request (el_findall rm "requirement")) with
      | None => None
      | Some reqs => Some (Some (fold_left (fun d r => dict_set (q_id r) r d) reqs []))
      end
  end.

(** parse_cs (serialize.py:131-139) with add_outermost, add_nested and
    is_reentrant (resources.py:79-92,108-116).  [held] are the resources of the
    enclosing sections.  None: AssertionError. *)
Fixpoint parse_cs (held : list pyval) (node : elem) : option xcs :=
  match node with
  | Elem tag attrs kids =>
      let res := get_maybe (Elem tag attrs []) "res_id" (VInt 0) in
      let len := get_maybe (Elem tag attrs []) "length" (VInt 0) in
      if existsb (pyval_eqb res) held then None
      else match all_some (map (parse_cs (res :: held)) kids) with
           | None => None
           | Some nested => Some (XCS res len nested)
           end
  end.

(** parse_critical_sections (serialize.py:141-149) *)
Definition parse_critical_sections (node : elem) : option (option (list xcs)) :=
  match el_find node "critical_sections" with
  | None => Some None
  | Some all_cs =>
      match all_some (map (parse_cs []) (el_findall all_cs "critical_section")) with
      | None => None
      | Some l => Some (Some l)
      end
  end.

(** get_attribute with convert=maybe_int (serialize.py:152-160) *)
Definition get_attribute (e : elem) (k : string) : option pyval := option_map maybe_int_str (el_get e k).

(** parse_task (serialize.py:162-186).  None: an exception. *)
Definition parse_task (node : elem) : option xtask :=
  let cost := get_maybe node "wcet" VNone in
  let period := get_maybe node "period" VNone in
  match parse_resmodel node, parse_critical_sections node with
  | Some resmodel, Some csmodel =>
      Some (XTask cost period
        (match get_attribute node "deadline" with Some d => d | None => period end)
        (match get_attribute node "id" with Some i => i | None => VNone end)
        (get_attribute node "partition") None (get_attribute node "wss") resmodel
        (match parse_affinity node with Some [] => None | a => a end) csmodel)
  | _, _ => None
  end.

(** parse_taskset (serialize.py:215-217) *)
Definition parse_taskset (node : elem) : option (list xtask) := all_some (map parse_task (el_findall node "task")).

(** parse_testpoint (serialize.py:219-226) *)
Definition parse_testpoint (node : elem) : option (list (string * pyval) * list (list xtask)) :=
  let params := match el_find node "config" with
                | None => []
                | Some config => fold_left (fun d kv => assoc_set (fst kv) (maybe_int_str (snd kv)) d) (el_attrs config) []
                end in
  match all_some (map parse_taskset (el_findall node "taskset")) with
  | None => None
  | Some tss => Some (params, tss)
  end.

(** the results of load (serialize.py:240-255) *)
Inductive loaded :=
  LTaskset (ts : list xtask) | LTestpoint (params : list (string * pyval)) (tss : list (list xtask)) | LTask (t : xtask) | LNone | LError.

(** load (serialize.py:240-255) *)
Definition load (root : elem) : loaded :=
  if String.eqb (el_tag root) "taskset" then match parse_taskset root with Some ts => LTaskset ts | None => LError end
  else if String.eqb (el_tag root) "testpoint" then match parse_testpoint root with Some (p, tss) => LTestpoint p tss | None => LError end
  else if String.eqb (el_tag root) "task" then match parse_task root with Some t => LTask t | None => LError end
  else LNone.
