(** * FleetSpec: several adapters and a sequence of synchronisations.

    Vocabulary for C77. *)
From Verif Require Export RowSpec CallSpec.

(** a call [dst.sync_from(src, ...)] without a given diff *)
Record sync_call := mkCall { sy_dst : aid; sy_src : aid; sy_hooks : hooks; sy_class : diffclass; sy_flags : N; sy_cb : bool }.
Fixpoint sync_each (fuel : nat) (l : list sync_call) : M world unit :=
  match l with
  | [] => ret tt
  | c :: l' => sync_from fuel (sy_hooks c) (sy_dst c) (sy_src c) (sy_class c) (sy_flags c) (sy_cb c) None ;;; sync_each fuel l'
  end.
(** load the adapters [a], [a+1], ... from their records *)
Fixpoint load_each (a : aid) (data : list (list row)) : M world unit :=
  match data with
  | [] => ret tt
  | rows :: data' => load a rows ;;; load_each (S a) data'
  end.

(** Whose records an adapter has: at first its own, and after a synchronisation those that the
    source has. *)
Definition assign (from : aid -> aid) (c : sync_call) : aid -> aid :=
  fun a => if Nat.eqb a (sy_dst c) then from (sy_src c) else from a.
Definition origin (l : list sync_call) : aid -> aid := fold_left assign l (fun a => a).

(** The records of each adapter are proper, those of any two match, and no class has flags *)
Record fleet (fuel : nat) (ads : list adapter) (data : list (list row)) : Prop := mkFleet {
  fl_length : length data = length ads;
  fl_each : forall a ad rows, nth_error ads a = Some ad -> nth_error data a = Some rows ->
    dataset (ad_classes ad) (ad_top ad) rows /\ proper_values (ad_classes ad) rows /\ NoDup (ad_top ad) /\ shallow (ad_classes ad) rows (fuel - 1);
  fl_pairs : forall a b ad bd rows rows', a <> b -> nth_error ads a = Some ad -> nth_error ads b = Some bd ->
    nth_error data a = Some rows -> nth_error data b = Some rows' ->
    matching (ad_classes ad) (ad_classes bd) rows rows' /\ forall t, In t (ad_top ad) <-> In t (ad_top bd);
  fl_flags : forall a b ad rows, nth_error ads a = Some ad -> nth_error data b = Some rows -> no_flags (ad_classes ad) rows
}.
(** a call between two of the adapters, with hooks that succeed and leave the attributes alone, an order
    that yields each element once, and without the flags SKIP_UNMATCHED_SRC and SKIP_UNMATCHED_DST *)
Definition plain_call (ads : list adapter) (c : sync_call) : Prop :=
  sy_src c <> sy_dst c /\ sy_src c < length ads /\
  (exists da, nth_error ads (sy_dst c) = Some da /\ spares_attributes da (sy_hooks c)) /\
  hooks_succeed (sy_hooks c) /\ yields_once (dc_order (sy_class c)) /\
  N.testbit (sy_flags c) 1 = false /\ N.testbit (sy_flags c) 2 = false.
