(** * PropShow: the presentations of a diff (C59-C61).

    [at_path], [pget], [gained], [lost], [differs], [reports], [precedes], ... are defined in ShowSpec.v. *)
From Coq Require Import Sorted Permutation.
From Verif Require Import DifferLast SyncSample ShowSpec ShowDict ShowStr ShowOrder.

(** C59.  dict() shows the attribute differences and nothing else: the values in it are, under
    the path of each element, the source values of differing attributes below "+" and the
    destination values below "-". *)
Theorem C59_values : forall d q v,
  yields_once (dc_order (d_class d)) -> tree_ok (d_groups d) -> signless (d_groups d) ->
  (pget (PD (diff_dict d)) q = Some (PV v) <->
   exists p x k, at_path (d_groups d) p x /\ ((q = p ++ ["+"; k] /\ gained x k v) \/ (q = p ++ ["-"; k] /\ lost x k v))).
Proof. exact (fun d q v O => dict_values _ O (d_groups d) q v). Qed.
Print Assumptions C59_values.

(** ... and an element is in it exactly if it or an element below it differs, with "+" exactly if it
    is in the source and "-" exactly if it is in the destination. *)
Theorem C59_elements : forall d p x,
  yields_once (dc_order (d_class d)) -> tree_ok (d_groups d) -> signless (d_groups d) -> at_path (d_groups d) p x ->
  let shown q := pget (PD (diff_dict d)) q <> None in
  (shown p <-> differs x \/ exists y, occurs y (e_kids x) /\ differs y) /\
  (shown p -> (shown (p ++ ["+"]) <-> e_src x <> None) /\ (shown (p ++ ["-"]) <-> e_dst x <> None)).
Proof. exact dict_elements. Qed.
Print Assumptions C59_elements.

Example C59_example :
  yields_once (dc_order (d_class d0)) /\ tree_ok (d_groups d0) /\ signless (d_groups d0) /\
  pget (PD (diff_dict d0)) ["site"; "nyc"; "device"; "r1"; "+"; "role"] = Some (PV (VStr "edge")) /\
  pget (PD (diff_dict d0)) ["site"; "nyc"; "device"; "r1"; "-"; "role"] = Some (PV (VStr "leaf")) /\
  pget (PD (diff_dict d0)) ["site"; "nyc"; "device"; "r1"; "+"; "serial"] = None /\
  pget (PD (diff_dict d0)) ["site"; "nyc"; "+"] = Some (PD []) /\
  pget (PD (diff_dict d0)) ["site"; "sfo"; "-"] = None.
Proof.
  split; [exact order_default_once|]. split.
  { apply (run_tree_ok w0 0 1 (mk_ad "src" (SLocal src_data)) (mk_ad "dst" (SLocal dst_data)) 20 base_class 0 false w0_ok eq_refl eq_refl). vm_compute. reflexivity. }
  split; [|vm_compute; auto].
  intros x O. apply In_tree_all in O.
  assert (F : forallb (fun e => negb (String.eqb (e_type e) "+") && negb (String.eqb (e_type e) "-")) (tree_all (d_groups d0)) = true) by (vm_compute; reflexivity).
  rewrite forallb_forall in F. specialize (F x O). apply andb_prop in F as [A B].
  split; intros E; rewrite E in *; discriminate.
Qed.

(** With a child type of the name "+" the differences of the parent are not shown: the
    dictionary of the children replaces them. *)
Definition x_sign : elem :=
  mkElem "site" "nyc" [("name", VStr "nyc")] "src" "dst" (Some [("region", VStr "east")]) (Some [("region", VStr "west")])
    [("+", [("a", mkElem "+" "a" [("name", VStr "a")] "src" "dst" (Some []) None [])])].
Definition d_sign : diff := mkDiff base_class [("site", [("nyc", x_sign)])] 3.
Theorem C59_sign_refuted :
  exists d p x k v, yields_once (dc_order (d_class d)) /\ tree_ok (d_groups d) /\ at_path (d_groups d) p x /\ gained x k v /\
    pget (PD (diff_dict d)) (p ++ ["+"; k]) = None.
Proof.
  exists d_sign, ["site"; "nyc"], x_sign, "region", (VStr "east"). split; [exact order_default_once|]. split.
  { apply tree_ok_single; [reflexivity|reflexivity|]. apply tree_ok_single; [reflexivity|reflexivity|]. exact tree_ok_nil. }
  split; [exact (path_here (d_groups d_sign) "site" [("nyc", x_sign)] "nyc" x_sign (or_introl eq_refl) (or_introl eq_refl))|]. split; [|vm_compute; reflexivity].
  eexists. split; [reflexivity|]. split; [reflexivity|]. eexists. split; reflexivity.
Qed.
Print Assumptions C59_sign_refuted.

(** C60.  str() is the report: every changed element once, below its type and its parent, with its
    differing attributes; "(no diffs)" if there is none. *)
Theorem C60_report : forall d indent ls, attrs_once (d_groups d) -> reports 0 (d_groups d) ls ->
  diff_str d indent = match ls with [] => "(no diffs)" | _ => join newline (map (written indent) ls) end.
Proof. exact str_report. Qed.
Print Assumptions C60_report.

(** ... and every diff has exactly one report. *)
Theorem C60_one : forall gs n, exists! ls, reports n gs ls.
Proof.
  exact (fun gs n => match report_exists gs n with
                     | ex_intro _ ls R => ex_intro _ ls (conj R (fun ls' R' => eq_sym (proj1 report_unique n gs ls R ls' R')))
                     end).
Qed.
Print Assumptions C60_one.

(** ... with no lines exactly if nothing differs. *)
Theorem C60_nothing : forall gs n, reports n gs [] <-> forall x, occurs x gs -> ~ differs x.
Proof. exact report_nothing. Qed.
Print Assumptions C60_nothing.

Example C60_example :
  attrs_once (d_groups d0) /\ ~ reports 0 (d_groups d0) [] /\
  diff_str d0 0 = join newline
    ["site"; "  site: nyc"; "    device"; "      device: r1"; "        role    src(edge)    dst(leaf)"; "        interface";
     "          interface: eth0"; "            mtu    src(9000)    dst(1500)"; "          interface: eth1 MISSING in dst";
     "          interface: lo MISSING in src"; "      device: r2 MISSING in dst"; "      device: r3 MISSING in src";
     "        interface"; "          interface: eth9 MISSING in src"; "  site: sfo MISSING in dst"; "  site: lon MISSING in src"].
Proof.
  assert (A : attrs_once (d_groups d0)).
  { intros x d O E. apply In_tree_all in O.
    assert (F : forallb (fun e => match e_dst e with Some d => nodupb (dkeys d) | None => true end) (tree_all (d_groups d0)) = true) by (vm_compute; reflexivity).
    rewrite forallb_forall in F. specialize (F x O). rewrite E in F. exact (nodupb_ok _ F). }
  split; [exact A|]. split; [|vm_compute; reflexivity].
  intros R. pose proof (str_report d0 0 [] A R) as E. vm_compute in E. discriminate.
Qed.

(** C61.  Siblings are ordered by type and name: exactly one of "<" and ">" holds between two of
    them, "<=" and ">=" agree with these, and no two are equal; ... *)
Theorem C61_siblings : forall gs x y, tree_ok gs -> In x (children gs) -> In y (children gs) -> x <> y ->
  (elem_ltb x y = true <-> precedes x y) /\
  elem_eqb x y = false /\ elem_ltb x y = negb (elem_ltb y x) /\
  elem_gtb x y = elem_ltb y x /\ elem_leb x y = elem_ltb x y /\ elem_geb x y = elem_ltb y x.
Proof. exact (fun gs x y T I J N => conj (ltb_precedes x y) (order_siblings gs x y T I J N)). Qed.
Print Assumptions C61_siblings.

(** ... of any elements, those with the same type, name, keys and attributes are equal, "<" is by type and name, and
    the other operators are made of these two; ... *)
Theorem C61_operators : forall x y, dicts_once x -> dicts_once y ->
  (elem_eqb x y = true <-> alike_elems x y) /\ (elem_ltb x y = true <-> precedes x y) /\
  (elem_leb x y = true <-> precedes x y \/ alike_elems x y) /\
  (elem_gtb x y = true <-> ~ precedes x y /\ ~ alike_elems x y) /\ (elem_geb x y = true <-> ~ precedes x y).
Proof. exact operators. Qed.
Print Assumptions C61_operators.

(** ... "<" is transitive, for any elements; ... *)
Theorem C61_transitive : forall x y z, elem_ltb x y = true -> elem_ltb y z = true -> elem_ltb x z = true.
Proof. exact (fun x y z H K => proj2 (ltb_precedes x z) (precedes_trans x y z (proj1 (ltb_precedes x y) H) (proj1 (ltb_precedes y z) K))). Qed.
Print Assumptions C61_transitive.

(** ... sorting siblings by "<" has one result. *)
Theorem C61_sorting : forall gs l l', tree_ok gs -> Permutation (children gs) l -> Permutation (children gs) l' ->
  StronglySorted (fun x y => elem_ltb y x = false) l -> StronglySorted (fun x y => elem_ltb y x = false) l' -> l = l'.
Proof. exact siblings_sort. Qed.
Print Assumptions C61_sorting.

Definition x_east : elem := mkElem "site" "nyc" [("name", VStr "nyc")] "src" "dst" (Some [("region", VStr "east")]) None [].
Definition x_west : elem := mkElem "site" "nyc" [("name", VStr "nyc")] "src" "dst" (Some [("region", VStr "west")]) None [].

Example C61_example :
  let l := children (d_groups d0) in
  map e_name l = ["nyc"; "sfo"; "lon"] /\
  match l with
  | [nyc; sfo; lon] => elem_ltb lon nyc = true /\ elem_ltb nyc sfo = true /\ elem_gtb sfo lon = true /\ elem_leb sfo lon = false /\
                       forallb (fun p => negb (elem_ltb (snd p) (fst p))) [(lon, nyc); (lon, sfo); (nyc, sfo)] = true
  | _ => False
  end.
Proof. vm_compute. auto 10. Qed.

Example C61_operators_example :
  let other := mkElem "site" "nyc" [("name", VStr "nyc")] "a" "b" (Some [("region", VStr "east")]) None (d_groups d0) in
  let kept := mkElem "site" "nyc" [("name", VStr "nyc")] "src" "dst" (Some [("region", VStr "east")]) (Some []) [] in
  dicts_once x_east /\ dicts_once other /\ elem_eqb x_east other = true /\ elem_leb x_east other = true /\ elem_geb x_east other = true /\
  elem_eqb x_east kept = false /\ elem_leb x_east kept = false.
Proof.
  cbn zeta. repeat apply conj; try (vm_compute; reflexivity); try (intros d E; cbn in E; try discriminate E; injection E as <-);
    repeat constructor; simpl; intuition discriminate.
Qed.

(** Between elements of different diffs the operators contradict each other: elements of the same
    type and name with other attributes are each greater than the other, ... *)
Theorem C61_order_refuted : exists x y, elem_gtb x y = true /\ elem_gtb y x = true /\ elem_geb x y = true /\ elem_leb x y = false.
Proof. exists x_east, x_west. vm_compute. auto. Qed.
Print Assumptions C61_order_refuted.

(** ... and elements with other children are equal. *)
Theorem C61_equal_refuted : exists x y, elem_eqb x y = true /\ e_action x = e_action y /\
  elem_has_diffs x = false /\ elem_has_diffs y = true.
Proof.
  exists (mkElem "site" "nyc" [] "src" "dst" (Some []) (Some []) []), (mkElem "site" "nyc" [] "src" "dst" (Some []) (Some []) (d_groups d0)).
  vm_compute. auto.
Qed.
Print Assumptions C61_equal_refuted.
