(** * LogDefs: where log records go.

    The configuration of Python's root logger and of structlog as far as
    logging.py and log.py set it.  Levels are Python's numbers. *)
From Coq Require Import Ascii ZArith.
From Verif Require Export SyncerDefs.

(** the levels of the records: logging.DEBUG, INFO, WARNING, ERROR *)
Definition level_no (l : loglevel) : nat :=
  match l with LDebug => 10 | LInfo => 20 | LWarning => 30 | LError => 40 end.

Inductive dest := Stdout | Stderr | ToFile (name : string).
Record handler := mkHandler { hd_dest : dest; hd_level : nat }.
(** [lc_level], [lc_handlers]: level and handlers of the root logger; [lc_std]: structlog.configure was called
    with the processors and the logger factory of logging.py:40-63 *)
Record logconf := mkLog { lc_level : nat; lc_handlers : list handler; lc_std : bool }.
(** A fresh interpreter: the root logger has level WARNING and no handlers *)
Definition log_fresh : logconf := mkLog 30 [] false.

(** [logging.basicConfig(format, level)]: nothing happens if the root logger has handlers; otherwise it gets one
    that writes to stderr, and the level *)
Definition basic_config (level : nat) (lc : logconf) : logconf :=
  match lc_handlers lc with
  | [] => mkLog level [mkHandler Stderr 0] (lc_std lc)
  | _ => lc
  end.

(** logging.py:33-38 *)
Definition verbosity_level (verbosity : Z) : nat :=
  if Z.eqb verbosity 0 then 30 else if Z.eqb verbosity 1 then 20 else 10.
(** logging.py:24-63 [enable_console_logging].  Simplification: processors that only render are left out. *)
Definition enable_console_logging (verbosity : Z) (lc : logconf) : logconf :=
  let lc := basic_config (verbosity_level verbosity) lc in
  mkLog (lc_level lc) (lc_handlers lc) true.

(** [s.upper()] on ASCII *)
Definition upper_ascii (c : ascii) : ascii :=
  let n := nat_of_ascii c in
  if Nat.leb 97 n && Nat.leb n 122 then ascii_of_nat (n - 32) else c.
Fixpoint upper (s : string) : string :=
  match s with "" => "" | String c s' => String (upper_ascii c) (upper s') end.
(** [logging._nameToLevel] *)
Definition level_named (s : string) : option nat :=
  dget [("CRITICAL", 50); ("FATAL", 50); ("ERROR", 40); ("WARN", 30); ("WARNING", 30); ("INFO", 20); ("DEBUG", 10); ("NOTSET", 0)] s.
(** log.py:17-70 [initialize_logging] without [config]: [dictConfig] replaces level and handlers of the root logger,
    or raises ValueError for a level that it does not know.  A StreamHandler without [stream] writes to stderr. *)
Definition initialize_logging (level : string) (filename : option string) (lc : logconf) : logconf * result unit :=
  match level_named (upper level) with
  | None => (lc, Err ExnValueError)
  | Some n =>
      (mkLog 10 (mkHandler Stderr n :: match filename with
                                       | Some (String c f) => [mkHandler (ToFile (String c f)) 10]
                                       | _ => []
                                       end) (lc_std lc), Ok tt)
  end.

(** Where a record of the library goes: with structlog's default configuration it is printed, whatever its level;
    otherwise [filter_by_level] (logging.py:41) asks the root logger, and each of its handlers looks at the level *)
Definition delivered (lc : logconf) (l : loglevel) : list dest :=
  if lc_std lc then
    if Nat.leb (lc_level lc) (level_no l)
    then map hd_dest (filter (fun hd => Nat.leb (hd_level hd) (level_no l)) (lc_handlers lc))
    else []
  else [Stdout].

(** What a list of events writes to a destination *)
Definition dest_eqb (a b : dest) : bool :=
  match a, b with
  | Stdout, Stdout | Stderr, Stderr => true
  | ToFile x, ToFile y => String.eqb x y
  | _, _ => false
  end.
Definition written (lc : logconf) (d : dest) (evs : list event) : list event :=
  filter (fun ev => match ev with EvLog l _ _ _ => existsb (dest_eqb d) (delivered lc l) | _ => false end) evs.

(** logging.py:66-84 [_structlog_exception_formatter_required].  Simplification: a version is the list of the
    numbers of its release segment (no pre-, post- or development releases); missing numbers count as 0. *)
Fixpoint version_lt (a b : list nat) : bool :=
  match a, b with
  | [], _ => existsb (Nat.ltb 0) b
  | _ :: _, [] => false
  | x :: a', y :: b' => Nat.ltb x y || (Nat.eqb x y && version_lt a' b')
  end.
Definition exception_formatter_required (v : list nat) (rich better : bool) : bool :=
  if version_lt v [21; 2; 0] then true else negb (rich || better).
