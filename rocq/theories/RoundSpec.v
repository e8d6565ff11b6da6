(** * RoundSpec: synchronisations that are repeated while hooks write attributes.

    Vocabulary for C93. *)
From Verif Require Export ShowSpec CallSpec ConvergeSpec.

(** the two sides have the attribute, with different values *)
Definition differ_in (e : elem) (k : string) : Prop :=
  exists s d a b, e_src e = Some s /\ e_dst e = Some d /\ dget s k = Some a /\ dget d k = Some b /\ py_eq a b = false.
(** The diff has no creations and deletions, and its updates concern such attributes only *)
Definition differs_only (X : string -> Prop) (d : diff) : Prop :=
  forall e, occurs e (d_groups d) -> e_action e <> Some ACreate /\ e_action e <> Some ADelete /\ forall k, differ_in e k -> X k.

(** the update hooks write no field outside [X]; the others may write any *)
Definition updates_write (X : string -> Prop) (h : hooks) : Prop :=
  forall w r attrs k, In k (dkeys (ho_fields (h w (HUpdate r attrs)))) -> X k.
(** no update hook writes a field that is an attribute of one of the adapter's classes *)
Definition updates_spare (da : adapter) (h : hooks) : Prop :=
  forall w r attrs k t c, In k (dkeys (ho_fields (h w (HUpdate r attrs)))) -> dget (ad_classes da) t = Some c -> ~ In k (c_attributes c).

(** the world after [n] synchronisations *)
Fixpoint rounds (fuel : nat) (h : hooks) (dst src : aid) (dc : diffclass) (flags : N) (n : nat) (w : world) : world :=
  match n with
  | O => w
  | S n' => rounds fuel h dst src dc flags n' (fst (sync_from fuel h dst src dc flags false None w))
  end.
