(** * PropTypes: the tree of an adapter's types (C98). *)
From Coq Require Import Ascii.
From Verif Require Import TypesFacts Samples.

(** C98.  Whatever the classes declare, everything the tree shows is so: it starts with a type of the adapter, and what
    stands below a type is a child type of it. *)
Theorem C98_edges : forall (top : list string) (classes : dict cls) (p : list string), path_in (tree_traversal top classes) p ->
  descent classes p /\ exists n q, p = n :: q /\ (In n top \/ In n (map fst classes)).
Proof.
  intros top classes p P. destruct (traversal_sound top classes) as (_ & H). destruct (H p P) as (D & n & q & E & I). split; [exact D|]. exists n, q. split; [exact E|]. now apply initial_order_all.
Qed.
Print Assumptions C98_edges.

(** With orderly classes the tree shows exactly the lines of descent from the types that are nobody's children ... *)
Theorem C98_exact : forall (top : list string) (classes : dict cls), orderly top classes ->
  forall p : list string, path_in (tree_traversal top classes) p <-> descent classes p /\ exists n q, p = n :: q /\ stem top classes n.
Proof. exact exact_tree. Qed.
Print Assumptions C98_exact.

(** ... each type at one place ... *)
Theorem C98_once : forall (top : list string) (classes : dict cls), orderly top classes ->
  forall (n : string), In n top \/ In n (map fst classes) -> exists! p, path_in (tree_traversal top classes) (p ++ [n]).
Proof.
  intros top classes OR n I. destruct (tree_traversal_complete top classes) as (U & K & _). destruct (key_in_path _ _ U (K n I)) as (p & P). exists p. split; [exact P|].
  intros q Q. apply (line_unique top classes OR n); now apply exact_tree.
Qed.
Print Assumptions C98_once.

(** ... and only the types that are nobody's children stand at the top. *)
Theorem C98_top : forall (top : list string) (classes : dict cls), orderly top classes ->
  forall n : string, path_in (tree_traversal top classes) [n] <-> (In n top \/ In n (map fst classes)) /\ forall m, ~ declares classes m n.
Proof. intros top classes OR n. rewrite (exact_tree top classes OR). apply line_one. Qed.
Print Assumptions C98_top.

(** The text can be read back: two trees of one-line names with the same text are the same. *)
Theorem C98_text : forall (root root' : string) (d d' : dict ntree),
  one_line root -> one_line root' -> (forall n, key_in n d -> one_line n) -> (forall n, key_in n d' -> one_line n) ->
  tree_string d root = tree_string d' root' -> root = root' /\ d = d'.
Proof. exact (fun root root' d d' => text_inj root d root' d'). Qed.
Print Assumptions C98_text.

Lemma s_declares n t : declares s_classes n t -> (n = "site" /\ t = "device") \/ (n = "device" /\ t = "interface").
Proof.
  intros (c & G & I). unfold s_classes in G. cbn [dget] in G.
  destruct (String.eqb_spec n "site") as [->|_]; [injection G as <-; destruct I as [<-|[]]; auto|].
  destruct (String.eqb_spec n "device") as [->|_]; [injection G as <-; destruct I as [<-|[]]; auto|].
  destruct (String.eqb n "interface"); [injection G as <-; destruct I|discriminate].
Qed.
Example C98_example : orderly ["site"] s_classes /\
  path_in (tree_traversal ["site"] s_classes) ["site"; "device"; "interface"] /\ ~ path_in (tree_traversal ["site"] s_classes) ["device"].
Proof.
  assert (OR : orderly ["site"] s_classes).
  { constructor.
    - intros m n t A B. apply s_declares in A as [(-> & ->)|(-> & ->)]; apply s_declares in B as [(-> & E)|(-> & E)]; congruence.
    - intros n t A [<-|[]]. apply s_declares in A as [(_ & E)|(_ & E)]; discriminate.
    - intros n t A. apply s_declares in A as [(-> & ->)|(-> & ->)]; [left; now left|right; reflexivity]. }
  assert (D1 : declares s_classes "site" "device") by (exists c_site; split; [reflexivity|now left]).
  assert (D2 : declares s_classes "device" "interface") by (exists c_device; split; [reflexivity|now left]).
  split; [exact OR|]. rewrite !(C98_exact _ _ OR). split.
  - split; [repeat constructor; assumption|]. exists "site", ["device"; "interface"]. split; [reflexivity|]. split; [left; now left|].
    intros m A. apply s_declares in A as [(_ & E)|(_ & E)]; discriminate.
  - intros (_ & n & q & E & (_ & N)). injection E as <- _. exact (N _ D1).
Qed.

Definition t_cls (n : string) (kids : list string) : cls := mkCls n ["name"] [] [] (map (fun k => (k, k ++ "s")%string) kids) [("name", None)] (map (fun k => k ++ "s")%string kids) 0.
(** The names matter: a type that is below one with a later name is shown at the top as well, and its own
    children only there. *)
Theorem C98_names_refuted : exists top classes,
  (forall m n t, declares classes m t -> declares classes n t -> m = n) /\ (forall n t, declares classes n t -> ~ In t top) /\
  declares classes "zone" "area" /\ path_in (tree_traversal top classes) ["area"] /\
  path_in (tree_traversal top classes) ["site"; "zone"; "area"] /\ declares classes "area" "bed" /\
  path_in (tree_traversal top classes) ["area"; "bed"] /\ ~ path_in (tree_traversal top classes) ["site"; "zone"; "area"; "bed"].
Proof.
  exists ["site"], [("site", t_cls "site" ["zone"]); ("zone", t_cls "zone" ["area"]); ("area", t_cls "area" ["bed"]); ("bed", t_cls "bed" [])].
  assert (DE : forall n t, declares [("site", t_cls "site" ["zone"]); ("zone", t_cls "zone" ["area"]); ("area", t_cls "area" ["bed"]); ("bed", t_cls "bed" [])] n t ->
    (n = "site" /\ t = "zone") \/ (n = "zone" /\ t = "area") \/ (n = "area" /\ t = "bed")).
  { intros n t (c & G & I). cbn [dget] in G.
    destruct (String.eqb_spec n "site") as [->|_]; [injection G as <-; destruct I as [<-|[]]; auto|].
    destruct (String.eqb_spec n "zone") as [->|_]; [injection G as <-; destruct I as [<-|[]]; auto|].
    destruct (String.eqb_spec n "area") as [->|_]; [injection G as <-; destruct I as [<-|[]]; auto|].
    destruct (String.eqb n "bed"); [injection G as <-; destruct I|discriminate]. }
  match goal with |- context [tree_traversal ?a ?b] => let v := eval vm_compute in (tree_traversal a b) in change (tree_traversal a b) with v end.
  repeat split.
  - intros m n t A B. apply DE in A as [(-> & ->)|[(-> & ->)|(-> & ->)]]; apply DE in B as [(-> & E)|[(-> & E)|(-> & E)]]; congruence.
  - intros n t A [<-|[]]. apply DE in A as [(_ & E)|[(_ & E)|(_ & E)]]; discriminate.
  - eexists. split; [reflexivity|now left].
  - eapply path_one. reflexivity.
  - do 2 (eapply path_more; [reflexivity|]). eapply path_one. reflexivity.
  - eexists. split; [reflexivity|now left].
  - eapply path_more; [reflexivity|]. eapply path_one. reflexivity.
  - intros P. inversion P as [|? ? ? ? G1 P1]; subst. cbn in G1. injection G1 as <-. inversion P1 as [|? ? ? ? G2 P2]; subst. cbn in G2. injection G2 as <-. inversion P2 as [|? ? ? ? G3 P3]; subst. cbn in G3. injection G3 as <-. now apply path_nil in P3.
Qed.
Print Assumptions C98_names_refuted.
(** And a type that two others declare shows its own children below the first of them only. *)
Theorem C98_shared_refuted : exists top classes,
  descent classes ["a"; "c"; "d"] /\ descent classes ["b"; "c"; "d"] /\ stem top classes "a" /\ stem top classes "b" /\
  path_in (tree_traversal top classes) ["a"; "c"; "d"] /\ path_in (tree_traversal top classes) ["b"; "c"] /\
  ~ path_in (tree_traversal top classes) ["b"; "c"; "d"].
Proof.
  exists ["a"; "b"], [("a", t_cls "a" ["c"]); ("b", t_cls "b" ["c"]); ("c", t_cls "c" ["d"]); ("d", t_cls "d" [])].
  match goal with |- context [tree_traversal ?a ?b] => let v := eval vm_compute in (tree_traversal a b) in change (tree_traversal a b) with v end.
  assert (NO : forall m t, declares [("a", t_cls "a" ["c"]); ("b", t_cls "b" ["c"]); ("c", t_cls "c" ["d"]); ("d", t_cls "d" [])] m t -> t = "c" \/ t = "d").
  { intros n t (c & G & I). cbn [dget] in G.
    destruct (String.eqb n "a"); [injection G as <-; destruct I as [<-|[]]; auto|].
    destruct (String.eqb n "b"); [injection G as <-; destruct I as [<-|[]]; auto|].
    destruct (String.eqb n "c"); [injection G as <-; destruct I as [<-|[]]; auto|].
    destruct (String.eqb n "d"); [injection G as <-; destruct I|discriminate]. }
  split; [repeat constructor; eexists; (split; [reflexivity|now left])|]. split; [repeat constructor; eexists; (split; [reflexivity|now left])|].
  split; [split; [left; now left|intros m A; destruct (NO _ _ A); discriminate]|]. split; [split; [left; right; now left|intros m A; destruct (NO _ _ A); discriminate]|].
  split; [do 2 (eapply path_more; [reflexivity|]); eapply path_one; reflexivity|]. split; [eapply path_more; [reflexivity|]; eapply path_one; reflexivity|].
  intros P. inversion P as [|? ? ? ? G1 P1]; subst. cbn in G1. injection G1 as <-. inversion P1 as [|? ? ? ? G2 P2]; subst. cbn in G2. injection G2 as <-. now apply path_nil in P2.
Qed.
Print Assumptions C98_shared_refuted.
(** A name with a newline can be taken for two. *)
Theorem C98_newline_refuted : exists root d d', d <> d' /\ tree_string d root = tree_string d' root.
Proof. exists "R", [("a" ++ newline ++ "├── b", NT []); ("c", NT [])]%string, [("a", NT []); ("b", NT []); ("c", NT [])]. split; [discriminate|reflexivity]. Qed.
Print Assumptions C98_newline_refuted.
