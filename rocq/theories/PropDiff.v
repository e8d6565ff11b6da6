(** * PropDiff: properties of Diff and DiffElement objects (C01-C04, C06). *)
From Verif Require Import DiffFacts Samples.

(** C01.  The action of an element, for every pair of optional attribute dictionaries. *)
Theorem C01_action : forall e : elem,
  (e_action e = Some ACreate <-> e_src e <> None /\ e_dst e = None) /\
  (e_action e = Some ADelete <-> e_src e = None /\ e_dst e <> None) /\
  (e_action e = Some AUpdate <->
     exists s d, e_src e = Some s /\ e_dst e = Some d /\
     exists k x y, dget s k = Some x /\ dget d k = Some y /\ py_eq x y = false).
Proof. exact (fun e => conj (action_create e) (conj (action_delete e) (action_update e))). Qed.
Print Assumptions C01_action.

Example C01_example :
  e_action e_r1 = Some AUpdate /\
  e_action (mkElem "device" "r1" [] "s" "d" (Some [("a", VInt 1); ("b", VInt 2)]) (Some [("b", VBool true); ("c", VInt 3)]) []) = Some AUpdate /\
  e_action (mkElem "device" "r1" [] "s" "d" (Some [("a", VInt 1); ("b", VInt 1)]) (Some [("b", VBool true); ("c", VInt 3)]) []) = None.
Proof. repeat split. Qed.

(** C02.  Attribute diffs are exactly the differing shared attributes ... *)
Theorem C02_attr_diffs : forall s d : dict val,
  exists p m,
    get_attrs_diffs (Some s) (Some d) = mkAD (Some p) (Some m) /\
    NoDup (dkeys p) /\ dkeys p = dkeys m /\
    forall k,
      (shared_unequal s d k -> dget p k = dget s k /\ dget m k = dget d k) /\
      (~ shared_unequal s d k -> dget p k = None /\ dget m k = None).
Proof. exact attrs_diffs_spec. Qed.
Print Assumptions C02_attr_diffs.

(** ... applying them closes the gap and touches nothing else (source values
    must equal themselves, which a NaN does not) ... *)
Theorem C02_apply_closes_gap : forall s d p m : dict val,
  get_attrs_diffs (Some s) (Some d) = mkAD (Some p) (Some m) ->
  (forall k x, dget s k = Some x -> py_eq x x = true) ->
  forall k, ~ shared_unequal s (dupdate d p) k /\
            (~ shared_unequal s d k -> dget (dupdate d p) k = dget d k).
Proof. exact attrs_diffs_apply. Qed.
Print Assumptions C02_apply_closes_gap.

(** ... and one side alone is reported whole. *)
Theorem C02_one_side : forall x : dict val, NoDup (dkeys x) ->
  get_attrs_diffs (Some x) None = mkAD (Some x) None /\
  get_attrs_diffs None (Some x) = mkAD None (Some x).
Proof. exact (fun x H => conj (f_equal (fun y => mkAD (Some y) None) (pick_all x H))
                              (f_equal (fun y => mkAD None (Some y)) (pick_all x H))). Qed.
Print Assumptions C02_one_side.

Example C02_example :
  e_attrs_diffs e_r1 = mkAD (Some [("role", VStr "edge")]) (Some [("role", VStr "leaf")]) /\
  dupdate [("asset", VInt 7); ("role", VStr "leaf"); ("serial", VNone)] [("role", VStr "edge")]
    = [("asset", VInt 7); ("role", VStr "edge"); ("serial", VNone)].
Proof. split; reflexivity. Qed.

(** C03.  All ways of asking whether there are differences agree. *)
Theorem C03_has_diffs_agree : forall (d : diff) (indent : nat),
  yields_all (dc_order (d_class d)) ->
  (diff_has_diffs d = true <-> exists x, occurs x (d_groups d) /\ e_action x <> None) /\
  (diff_has_diffs d = true <->
     n_create (diff_counts d) + n_update (diff_counts d) + n_delete (diff_counts d) <> 0) /\
  (diff_has_diffs d = true <-> diff_dict d <> []) /\
  (diff_has_diffs d = true <-> diff_str d indent <> "(no diffs)").
Proof. exact has_diffs_agree. Qed.
Print Assumptions C03_has_diffs_agree.

Example C03_example :
  diff_has_diffs d0 = true /\ yields_all (dc_order (d_class d0)) /\ length (diff_dict d0) = 1.
Proof. split; [reflexivity|split; [apply yields_once_all, order_default_once|reflexivity]]. Qed.

(** C04.  len counts every element once and agrees with the summary; each
    summary entry is the number of elements with that action. *)
Theorem C04_len_summary : forall d : diff,
  yields_once (dc_order (d_class d)) ->
  diff_len d = length (tree_all (d_groups d)) /\
  diff_len d = n_create (diff_counts d) + n_update (diff_counts d) + n_delete (diff_counts d) + n_nochange (diff_counts d) /\
  n_create (diff_counts d) = how_many (is_action (Some ACreate)) (tree_all (d_groups d)) /\
  n_update (diff_counts d) = how_many (is_action (Some AUpdate)) (tree_all (d_groups d)) /\
  n_delete (diff_counts d) = how_many (is_action (Some ADelete)) (tree_all (d_groups d)) /\
  n_nochange (diff_counts d) = how_many (is_action None) (tree_all (d_groups d)).
Proof. exact len_summary. Qed.
Print Assumptions C04_len_summary.

(** [tree_all] lists exactly the elements that occur in the tree. *)
Theorem C04_tree_all_complete : forall x gs, In x (tree_all gs) <-> occurs x gs.
Proof. exact In_tree_all. Qed.
Print Assumptions C04_tree_all_complete.

Example C04_example :
  diff_len d0 = 10 /\ diff_counts d0 = mkCounts 3 2 4 1 /\ yields_once order_reverse /\
  diff_len (mkDiff (mkDiffClass "R" ["R"; "Diff"] order_reverse) (d_groups d0) 0) = 10.
Proof.
  split; [reflexivity|]. split; [reflexivity|]. split; [|reflexivity].
  intros t l. unfold order_reverse. symmetry. apply Permutation_rev.
Qed.

(** C06 (first part).  Diff.add refuses a second element with the same type and
    name, and otherwise appends the element and changes nothing else. *)
Theorem C06_add : forall (d : diff) (e : elem),
  match dget (group_of (d_groups d) (e_type e)) (e_name e) with
  | Some _ => diff_add d e = Err ObjectAlreadyExists
  | None => exists d', diff_add d e = Ok d' /\
      d_class d' = d_class d /\ d_processed d' = d_processed d /\
      (forall t n, dget (group_of (d_groups d') t) n =
         if String.eqb t (e_type e) && String.eqb n (e_name e) then Some e
         else dget (group_of (d_groups d) t) n) /\
      (forall t, dvals (group_of (d_groups d') t) =
         dvals (group_of (d_groups d) t) ++ (if String.eqb t (e_type e) then [e] else [])) /\
      groups d' = groups d ++ (if smem (e_type e) (groups d) then [] else [e_type e])
  end.
Proof. exact diff_add_spec. Qed.
Print Assumptions C06_add.

(** A new Diff is empty, and nothing has been processed. *)
Theorem C06_new : forall dc, let d := empty_diff dc in
  d_class d = dc /\ d_processed d = 0 /\ groups d = [] /\ diff_len d = 0 /\ diff_counts d = mkCounts 0 0 0 0 /\
  forall t n, dget (group_of (d_groups d) t) n = None.
Proof. intros dc. repeat split. Qed.
Print Assumptions C06_new.
(** DiffElement.add_child is the same on the children of an element. *)
Theorem C06_add_child : forall (p e : elem),
  match dget (group_of (e_kids p) (e_type e)) (e_name e) with
  | Some _ => elem_add_child p e = Err ObjectAlreadyExists
  | None => exists p', elem_add_child p e = Ok p' /\
      e_type p' = e_type p /\ e_name p' = e_name p /\ e_keys p' = e_keys p /\ e_sname p' = e_sname p /\ e_dname p' = e_dname p /\
      e_src p' = e_src p /\ e_dst p' = e_dst p /\
      (forall t n, dget (group_of (e_kids p') t) n =
         if String.eqb t (e_type e) && String.eqb n (e_name e) then Some e
         else dget (group_of (e_kids p) t) n) /\
      (forall t, dvals (group_of (e_kids p') t) =
         dvals (group_of (e_kids p) t) ++ (if String.eqb t (e_type e) then [e] else [])) /\
      dkeys (e_kids p') = dkeys (e_kids p) ++ (if smem (e_type e) (dkeys (e_kids p)) then [] else [e_type e])
  end.
Proof.
  intros p e. pose proof (diff_add_spec (mkDiff base_class (e_kids p) 0) e) as H. unfold diff_add, elem_add_child in *. cbn [d_groups d_class d_processed] in H.
  destruct (dget (group_of (e_kids p) (e_type e)) (e_name e)) as [x|].
  - destruct (groups_add (e_kids p) e); [discriminate|]. now injection H as ->.
  - destruct (groups_add (e_kids p) e) as [gs|x]; destruct H as (d' & H & H1 & H2 & H3 & H4 & H5); [|discriminate]. injection H as <-.
    eexists. split; [reflexivity|]. repeat (split; [reflexivity|]). auto.
Qed.
Print Assumptions C06_add_child.

(** Every sequence of additions, starting from a new Diff, keeps siblings unique. *)
Theorem C06_adds_unique : forall (dc : diffclass) (es : list elem) (d : diff),
  (forall e, In e es -> tree_ok (e_kids e)) ->
  adds (empty_diff dc) es = Ok d -> tree_ok (d_groups d).
Proof. exact adds_unique. Qed.
Print Assumptions C06_adds_unique.

Example C06_example :
  (exists d, adds (empty_diff base_class) [e_r1; mkElem "site" "r1" [] "s" "d" None None []] = Ok d /\ diff_len d = 2) /\
  adds (empty_diff base_class) [e_r1; e_r1] = Err ObjectAlreadyExists /\
  (exists p', elem_add_child e_r1 e_r1 = Ok p' /\ e_name p' = "r1" /\ elem_add_child p' e_r1 = Err ObjectAlreadyExists).
Proof. split; [eexists; split; reflexivity|]. split; [reflexivity|]. eexists. split; [reflexivity|]. split; reflexivity. Qed.
