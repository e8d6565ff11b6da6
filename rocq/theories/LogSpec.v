(** * LogSpec: what is written where.

    Vocabulary for C84. *)
From Verif Require Export CallSpec LogDefs.

(** a record at least as grave as a warning *)
Definition grave (ev : event) : bool :=
  match ev with EvLog LWarning _ _ _ | EvLog LError _ _ _ => true | _ => false end.
(** nothing grave happened *)
Definition silent (evs : list event) : Prop := forall ev, In ev evs -> grave ev = false.
(** the call may return an object with the status SUCCESS *)
Definition succeeds (h : hooks) (call : event) : Prop := exists msg, may_end h call (CSays StSuccess msg).
(** the records enable_console_logging promises: 0 for WARNING, 1 for INFO, 2 for DEBUG *)
Definition promised (verbosity : nat) (ev : event) : bool :=
  match ev with
  | EvLog LError _ _ _ | EvLog LWarning _ _ _ => true
  | EvLog LInfo _ _ _ => negb (Nat.eqb verbosity 0)
  | EvLog LDebug _ _ _ => negb (Nat.eqb verbosity 0) && negb (Nat.eqb verbosity 1)
  | _ => false
  end.
Definition is_record (ev : event) : bool := match ev with EvLog _ _ _ _ => true | _ => false end.
(** at least as grave as a level named so *)
Definition at_least (level : string) (ev : event) : bool :=
  match ev with
  | EvLog l _ _ _ =>
      match level with
      | "DEBUG" => true
      | "INFO" => match l with LDebug => false | _ => true end
      | "WARNING" => match l with LDebug | LInfo => false | _ => true end
      | "ERROR" => match l with LError => true | _ => false end
      | _ => false
      end
  | _ => false
  end.
(** the hooks report no failure *)
Definition hooks_report_success (h : hooks) : Prop :=
  forall w hc st msg, ho_status (h w hc) = Some (st, msg) -> st = StSuccess.
