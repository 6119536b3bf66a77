(** Model of logger configuration: logger_gbl_t (src/log.cpp:171-247), logger::init() (:268-286),
    logger_level_set(), logger_level_clear() and logger_config_env() (:329-390).

    [glob] stands for epicsStrGlobMatch() of EPICS Base.  Levels are numbers; Level(-1), of a logger
    not yet initialised, is not in the table.  Simplification: the table is locked throughout each
    call, and initialisation of a logger is one step.

    No proofs in this file. *)
From Coq Require Import ZArith List Bool.
From Verif Require Import Base.
Import ListNotations.
Local Open Scope Z_scope.

Section Log.
(** epicsStrGlobMatch(name, pattern) *)
Variable glob : str -> str -> bool.

(** a logger: a static object of the program, here with a number; its name *)
Record logger := { l_id : nat; l_name : str; l_lvl : Z }.
(** logger_gbl_t, src/log.cpp:171-176; [loggers]: a multimap by name, order irrelevant here *)
Record gbl := { config : list (str * Z); loggers : list logger }.
Definition new_gbl : gbl := {| config := []; loggers := [] |}.
(** Level::Warn, src/pvxs/log.h *)
Definition warn : Z := 30.

(** logger_gbl_t::init(), src/log.cpp:188-215 *)
Fixpoint last_match (name : str) (lvl : Z) (c : list (str * Z)) : Z :=
  match c with
  | (p, l) :: c' => last_match name (if glob name p then l else lvl) c'
  | [] => lvl
  end.
Definition find_logger (name : str) (l : list logger) : option logger := find (fun x => str_eqb (l_name x) name) l.
Definition init_level (g : gbl) (name : str) : Z :=
  match find_logger name (loggers g) with
  | Some x => l_lvl x
  | None => last_match name warn (config g)
  end.
Definition init (g : gbl) (id : nat) (name : str) : gbl :=
  {| config := config g; loggers := loggers g ++ [{| l_id := id; l_name := name; l_lvl := init_level g name |}] |}.

(** logger_gbl_t::set(), src/log.cpp:217-247 *)
Fixpoint find_conf (p : str) (c : list (str * Z)) : option Z :=
  match c with
  | (q, l) :: c' => if str_eqb q p then Some l else find_conf p c'
  | [] => None
  end.
Fixpoint set_conf (p : str) (lvl : Z) (c : list (str * Z)) : list (str * Z) :=
  match c with
  | (q, l) :: c' => if str_eqb q p then (q, lvl) :: c' else (q, l) :: set_conf p lvl c'
  | [] => []
  end.
Definition apply_level (p : str) (lvl : Z) (x : logger) : logger :=
  if glob (l_name x) p then {| l_id := l_id x; l_name := l_name x; l_lvl := lvl |} else x.
Definition set (g : gbl) (p : str) (lvl0 : Z) : gbl :=
  let lvl := if lvl0 <=? 0 then 1 else lvl0 in
  let c := match find_conf p (config g) with Some _ => config g | None => config g ++ [(p, -1)] end in
  if match find_conf p c with Some l => l =? lvl | None => false end
  then {| config := c; loggers := loggers g |}
  else {| config := set_conf p lvl c; loggers := map (apply_level p lvl) (loggers g) |}.

(** logger_level_clear(), src/log.cpp:338-344 *)
Definition clear (g : gbl) : gbl := {| config := []; loggers := loggers g |}.

Inductive event := Set_ (p : str) (lvl : Z) | Init (id : nat) (name : str) | Clear.
Definition step (g : gbl) (e : event) : gbl :=
  match e with Set_ p lvl => set g p lvl | Init id name => init g id name | Clear => clear g end.
Definition run (es : list event) : gbl := fold_left step es new_gbl.
End Log.

(** ** logger_config_env(), src/log.cpp:346-390: the calls of set() it makes, for a text without NUL *)
(** name2lvl(), src/log.cpp:159-169, Level of src/pvxs/log.h *)
Definition name2lvl (s : str) : option Z :=
  if str_eqb s [68; 69; 66; 85; 71] then Some 50             (* DEBUG *)
  else if str_eqb s [73; 78; 70; 79] then Some 40            (* INFO *)
  else if str_eqb s [87; 65; 82; 78] then Some 30            (* WARN *)
  else if str_eqb s [69; 82; 82] then Some 20                (* ERR *)
  else if str_eqb s [67; 82; 73; 84] then Some 10            (* CRIT *)
  else None.
(** the number of chars before the first [c], or all: the loops at :361-365 *)
Fixpoint scan (c : Z) (s : str) : nat := match s with x :: s' => if x =? c then O else S (scan c s') | [] => O end.
Fixpoint config_env (fuel : nat) (env : str) : list (str * Z) :=
  match fuel, env with
  | S f, _ :: _ =>
    let sep := scan 44 env in
    let eq := scan 61 env in
    let now :=
      if (sep =? 0)%nat then []
      else if (eq <? sep)%nat then
        let key := firstn eq env in
        let val := firstn (sep - eq - 1) (skipn (eq + 1) env) in
        match key, val with
        | [], _ | _, [] => []
        | _, _ => match name2lvl val with Some l => [(key, l)] | None => [] end
        end
      else [] in
    let rest := skipn sep env in
    now ++ config_env f (match rest with 44 :: r => r | r => r end)
  | _, _ => []
  end.
