(** * PoolSpec: sequences of synchronisations with any flags.

    Vocabulary for C79: what the records of each adapter are after each call.  It speaks of records
    only, not of objects, stores or diffs. *)
From Verif Require Export FleetSpec.

Definition has_row (cs : dict cls) (rows : list row) (x : row) : bool :=
  existsb (fun y => String.eqb (fst (row_key cs y)) (fst (row_key cs x)) && String.eqb (snd (row_key cs y)) (snd (row_key cs x))) rows.
(** The records of the destination after a synchronisation: those of the source ([rows]), with SKIP_UNMATCHED_SRC
    (bit 1) only where the destination ([rows']) had one too; and with SKIP_UNMATCHED_DST (bit 2) those that
    the source has not. *)
Definition pool (cs : dict cls) (flags : N) (rows rows' : list row) : list row :=
  filter (fun x => negb (N.testbit flags 1) || has_row cs rows' x) rows ++
  (if N.testbit flags 2 then filter (fun y => negb (has_row cs rows y)) rows' else []).
(** the records of each adapter, before any call and after the calls *)
Definition given (data : list (list row)) : aid -> list row := fun a => nth a data [].
Definition pool_call (cs : dict cls) (D : aid -> list row) (c : sync_call) : aid -> list row :=
  fun a => if Nat.eqb a (sy_dst c) then pool cs (sy_flags c) (D (sy_src c)) (D (sy_dst c)) else D a.
Definition pooled (cs : dict cls) (l : list sync_call) (data : list (list row)) : aid -> list row := fold_left (pool_call cs) l (given data).

(** The adapters have the same classes and top-level types; the records of each are a dataset; records with the
    same type and unique id have the same identifiers and parents, and names distinguish siblings, in all
    records together. *)
Record crowd (fuel : nat) (cs : dict cls) (tops : list string) (ads : list adapter) (data : list (list row)) : Prop := mkCrowd {
  cw_length : length data = length ads;
  cw_ads : forall ad, In ad ads -> ad_classes ad = cs /\ ad_top ad = tops;
  cw_tops : NoDup tops;
  cw_each : forall rows, In rows data -> dataset cs tops rows;
  cw_match : matching cs cs (concat data) (concat data);
  cw_proper : proper_values cs (concat data);
  cw_shallow : shallow cs (concat data) (fuel - 1);
  cw_flags : no_flags cs (concat data)
}.
(** a call between two of the adapters, with any flags *)
Definition any_call (ads : list adapter) (c : sync_call) : Prop :=
  sy_src c <> sy_dst c /\ sy_src c < length ads /\
  (exists da, nth_error ads (sy_dst c) = Some da /\ spares_attributes da (sy_hooks c)) /\
  hooks_succeed (sy_hooks c) /\ yields_once (dc_order (sy_class c)).
