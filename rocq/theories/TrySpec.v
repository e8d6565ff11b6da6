(** * TrySpec: synchronisations that may fail, between edits.

    Vocabulary for C95: a program that edits adapters and tries to synchronise them, and what the records of each
    adapter may be after each of its steps.  The latter speaks of records only. *)
From Verif Require Export EditSpec FailSpec.

(** ** What the program does *)

(** an edit, or a synchronisation within [try: ... except Exception: pass] *)
Inductive move :=
| Do (ch : change)
| Try (c : sync_call).
Definition do_move (fuel : nat) (mv : move) : M world unit :=
  match mv with
  | Do ch => do_change fuel ch
  | Try c => fun w => (fst (sync_from fuel (sy_hooks c) (sy_dst c) (sy_src c) (sy_class c) (sy_flags c) (sy_cb c) None w), Ok tt)
  end.
Fixpoint do_moves (fuel : nat) (l : list move) : M world unit :=
  match l with
  | [] => ret tt
  | mv :: l' => do_move fuel mv ;;; do_moves fuel l'
  end.

(** ** What it may do to the records *)

(** The records of the destination after a synchronisation that may have failed: each is one of the source ([rows]) or of
    the destination ([rows']); those of the destination that the source has too are still there, in one of the two
    versions, with SKIP_UNMATCHED_DST (bit 2) the others as well; with SKIP_UNMATCHED_SRC (bit 1) none is new. *)
Record partly (cs : dict cls) (flags : N) (rows rows' rest : list row) : Prop := mkPartly {
  pa_from : forall x, In x rest -> In x rows \/ In x rows';
  pa_both : forall y, In y rows' -> has_row cs rows y = true \/ N.testbit flags 2 = true -> has_row cs rest y = true;
  pa_new : forall x, In x rest -> has_row cs rows' x = true \/ N.testbit flags 1 = false
}.
Definition may_become (cs : dict cls) (tops : list string) (D : aid -> list row) (mv : move) (D' : aid -> list row) : Prop :=
  match mv with
  | Do ch => D' = change_rows cs D ch
  | Try c => exists rest, partly cs (sy_flags c) (D (sy_src c)) (D (sy_dst c)) rest /\ dataset cs tops rest /\ D' = put D (sy_dst c) rest
  end.
Fixpoint may_be_after (cs : dict cls) (tops : list string) (D : aid -> list row) (l : list move) (D' : aid -> list row) : Prop :=
  match l with
  | [] => D' = D
  | mv :: l' => exists D1, may_become cs tops D mv D1 /\ may_be_after cs tops D1 l' D'
  end.

(** ** Conditions *)

(** no class has flags *)
Definition unmarked (cs : dict cls) : Prop := forall t c, dget cs t = Some c -> c_flags c = 0%N.
(** a call between two of the adapters; its create and update hooks may fail *)
Definition try_call (ads : list adapter) (c : sync_call) : Prop :=
  sy_src c <> sy_dst c /\ sy_src c < length ads /\
  (exists da, nth_error ads (sy_dst c) = Some da /\ spares_attributes da (sy_hooks c)) /\
  hooks_honest (sy_hooks c) /\ deletes_succeed (sy_hooks c) /\ yields_once (dc_order (sy_class c)).
Definition can_move (cs : dict cls) (U : list row) (ads : list adapter) (D : aid -> list row) (mv : move) : Prop :=
  match mv with Do ch => can_do cs U ads D ch | Try c => try_call ads c end.
(** each step can be made, whatever became of those before *)
Fixpoint can_move_all (cs : dict cls) (tops : list string) (U : list row) (ads : list adapter) (D : aid -> list row) (l : list move) : Prop :=
  match l with
  | [] => True
  | mv :: l' => can_move cs U ads D mv /\ forall D', may_become cs tops D mv D' -> can_move_all cs tops U ads D' l'
  end.
