(** * PropTree: nested dictionaries and the tree traversal (C52, C53). *)
From Verif Require Import TreeFacts Samples.

(** C52.  The traversal contains every model attribute and every top-level
    name, and each child type directly below each model that declares it. *)
Theorem C52_traversal_complete : forall (top : list string) (classes : dict cls),
  (forall n, In n top \/ In n (map fst classes) -> key_in n (tree_traversal top classes)) /\
  (forall n c child, dget classes n = Some c -> In child (map fst (c_children c)) ->
     exists p, path_in (tree_traversal top classes) (p ++ [n; child])).
Proof. exact (fun top classes => proj2 (tree_traversal_complete top classes)). Qed.
Print Assumptions C52_traversal_complete.

(** The text is the root line followed by one line per node, in pre-order, each drawn with the branches that lead to
    it. *)
Theorem C52_rendering : forall (data : dict ntree) (root : string),
  tree_string data root = join newline (root :: map drawn (walk (NT data))) /\ map snd (walk (NT data)) = preorder (NT data).
Proof.
  intros data root. split; [|apply walk_preorder]. unfold tree_string. rewrite tree_lines_drawn. do 2 f_equal.
Qed.
Print Assumptions C52_rendering.

Example C52_example :
  tree_traversal ["site"] s_classes = [("site", NT [("device", NT [("interface", NT [])])])] /\
  tree_string (tree_traversal ["site"] s_classes) "Sample"
  = ("Sample" ++ newline ++ "└── site" ++ newline ++ "    └── device" ++ newline ++ "        └── interface")%string /\
  tree_traversal ["interface"; "site"] s_classes
  = [("interface", NT []); ("site", NT [("device", NT [("interface", NT [])])])].
Proof. repeat split. Qed.

(** C53.  get_path on a Python dictionary (keys unique at every level) ... *)
Theorem C53_get_path : forall (d : dict ntree) (v : string), uniq d ->
  (get_path d v = None <-> ~ key_in v d) /\
  (forall p, get_path d v = Some p -> path_in d p /\ exists q, p = q ++ [v]).
Proof. exact (fun d v U => conj (get_path_none d v) (fun p => get_path_some d v p U)). Qed.
Print Assumptions C53_get_path.

(** ... and set_key: afterwards exactly the old paths and the prefixes of the
    given one can be followed. *)
Theorem C53_set_key : forall (d : dict ntree) (ks : list string), ks <> [] ->
  path_in (set_key d ks) ks /\
  (forall p, path_in d p -> path_in (set_key d ks) p) /\
  (forall p, path_in (set_key d ks) p -> path_in d p \/ exists q, ks = p ++ q) /\
  (uniq d -> uniq (set_key d ks)).
Proof. exact (fun d ks H => conj (set_key_path ks d H) (conj (set_key_keeps ks d) (conj (set_key_only ks d) (uniq_set_key ks d)))). Qed.
Print Assumptions C53_set_key.

Example C53_example :
  get_path [("a", NT [("b", NT []); ("c", NT [("d", NT [])])]); ("d", NT [])] "d" = Some ["a"; "c"; "d"] /\
  get_path [("a", NT [("b", NT [])])] "z" = None /\
  set_key [("a", NT [("b", NT [])])] ["a"; "c"; "d"] = [("a", NT [("b", NT []); ("c", NT [("d", NT [])])])].
Proof. repeat split. Qed.
