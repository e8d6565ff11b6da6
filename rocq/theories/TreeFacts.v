(** * TreeFacts: nested dictionaries, get_path, set_key, the tree traversal. *)
From Verif Require Export BaseFacts AdapterDefs.

(** ** Vocabulary (independent of the functions in AdapterDefs) *)

(** the keys [p] can be followed from the root: [d[k1][k2]...] *)
Inductive path_in : dict ntree -> list string -> Prop :=
| path_one d k t : dget d k = Some t -> path_in d [k]
| path_more d k t p : dget d k = Some t -> path_in (nt_kids t) p -> path_in d (k :: p).

(** the key occurs somewhere *)
Inductive key_in (v : string) : dict ntree -> Prop :=
| key_here d t : In (v, t) d -> key_in v d
| key_below d k t : In (k, t) d -> key_in v (nt_kids t) -> key_in v d.

(** keys are unique at every level, as in any Python dict *)
Inductive uniq : dict ntree -> Prop :=
| uniq_intro d : NoDup (dkeys d) -> (forall k t, In (k, t) d -> uniq (nt_kids t)) -> uniq d.

(** all keys, parents before children *)
Fixpoint preorder (t : ntree) : list string :=
  match t with NT kids => flat_map (fun kv => fst kv :: preorder (snd kv)) kids end.

(** ** Proofs *)
(** the nodes in pre-order, each with whether its ancestors (from the top) and it are the last among their siblings *)
Fixpoint walk (t : ntree) : list (list bool * string) :=
  match t with NT kids => (fix go (l : dict ntree) := match l with
    | [] => []
    | (k, t') :: l' => let last := match l' with [] => true | _ => false end in
                       ([last], k) :: map (fun x => (last :: fst x, snd x)) (walk t') ++ go l'
    end) kids end.
(** the line of a node: under a last sibling nothing is drawn, under others a bar *)
Definition drawn (x : list bool * string) : string :=
  (String.concat "" (map (fun b : bool => if b then "    " else "│   ") (removelast (fst x))) ++ (if last (fst x) false then "└── " else "├── ") ++ snd x)%string.
Lemma ntree_ind' (P : ntree -> Prop) :
  (forall kids, Forall (fun kv => P (snd kv)) kids -> P (NT kids)) -> forall t, P t.
Proof.
  intros H. fix IH 1. intros [kids]. apply H.
  induction kids as [|[k t] kids IHk]; constructor; [apply IH|exact IHk].
Qed.

Lemma uniq_sub d k t : uniq d -> dget d k = Some t -> uniq (nt_kids t).
Proof. intros [d' H1 H2] E. apply dget_Some_In in E. eauto. Qed.
Lemma uniq_nil : uniq [].
Proof. constructor; [constructor|intros ? ? []]. Qed.

Definition go_path (v : string) : dict ntree -> option (list string) :=
  fix go (l : dict ntree) : option (list string) :=
    match l with
    | [] => None
    | (k, t') :: l' =>
        if String.eqb k v then Some [k]
        else match get_path_tree t' v with
             | Some p => Some (k :: p)
             | None => go l'
             end
    end.
Lemma get_path_go d v : get_path d v = go_path v d.
Proof. reflexivity. Qed.
Lemma get_path_tree_go t v : get_path_tree t v = go_path v (nt_kids t).
Proof. destruct t; reflexivity. Qed.

Lemma get_path_none_tree v : forall t, get_path_tree t v = None <-> ~ key_in v (nt_kids t).
Proof.
  induction t as [kids IH] using ntree_ind'. rewrite get_path_tree_go. simpl nt_kids.
  induction kids as [|[k t] kids IHk]; simpl.
  - split; [intros _ H; inversion H; subst; simpl in *; tauto|reflexivity].
  - inversion IH as [|? ? H1 H2]; subst. specialize (IHk H2). simpl in H1.
    destruct (String.eqb_spec k v) as [->|N].
    + split; [discriminate|]. intros H. exfalso. apply H. eapply key_here. now left.
    + destruct (get_path_tree t v) as [p|].
      * split; [discriminate|]. intros H. exfalso.
        assert (~ key_in v (nt_kids t)) as X; [|apply H1 in X; discriminate].
        intros X. apply H. eapply key_below; [now left|exact X].
      * rewrite IHk. destruct H1 as [H1 _]. specialize (H1 eq_refl). split; intros H X; apply H.
        -- inversion X as [d t' I|d k' t' I Y]; subst; destruct I as [E|E].
           ++ injection E as -> ->. congruence.
           ++ eapply key_here; eauto.
           ++ injection E as -> ->. contradiction.
           ++ eapply key_below; eauto.
        -- inversion X; subst; [eapply key_here|eapply key_below]; try right; eauto.
Qed.

Lemma get_path_none d v : get_path d v = None <-> ~ key_in v d.
Proof. exact (get_path_none_tree v (NT d)). Qed.

Lemma get_path_some_tree v : forall t p, uniq (nt_kids t) -> get_path_tree t v = Some p ->
  path_in (nt_kids t) p /\ exists q, p = q ++ [v].
Proof.
  induction t as [kids IH] using ntree_ind'. intros p U. rewrite get_path_tree_go. simpl nt_kids in *.
  enough (G : forall l, incl l kids -> go_path v l = Some p -> path_in kids p /\ exists q, p = q ++ [v])
    by (intros E; apply (G kids); [apply incl_refl|exact E]).
  induction l as [|[k t] l IHl]; simpl; [discriminate|]. intros HI.
  assert (HK : dget kids k = Some t).
  { inversion U; subst. apply In_dget; [assumption|]. apply HI. now left. }
  destruct (String.eqb_spec k v) as [->|N].
  - intros E. injection E as <-. split; [eapply path_one; eauto|now exists []].
  - destruct (get_path_tree t v) as [p'|] eqn:E.
    + intros X. injection X as <-.
      rewrite Forall_forall in IH. specialize (IH (k, t) (HI _ (or_introl eq_refl)) p').
      simpl in IH. destruct IH as [P [q ->]]; [eapply uniq_sub; eauto|exact E|].
      split; [eapply path_more; eauto|]. now exists (k :: q).
    + apply IHl. intros x Hx. apply HI. now right.
Qed.

Lemma get_path_some d v p : uniq d -> get_path d v = Some p -> path_in d p /\ exists q, p = q ++ [v].
Proof. intros U H. exact (get_path_some_tree v (NT d) p U H). Qed.

Lemma set_key_path ks : forall d, ks <> [] -> path_in (set_key d ks) ks.
Proof.
  induction ks as [|k ks IH]; intros d H; [congruence|]. simpl. destruct ks as [|k' ks].
  - eapply path_one. apply dget_dset_eq.
  - eapply path_more; [apply dget_dset_eq|]. apply IH. discriminate.
Qed.

Lemma set_key_keeps ks : forall d p, path_in d p -> path_in (set_key d ks) p.
Proof.
  induction ks as [|k ks IH]; intros d p H; [exact H|]. simpl.
  inversion H as [? k' t E|? k' t p' E P]; subst.
  - destruct (String.eqb_spec k' k) as [->|N].
    + eapply path_one. apply dget_dset_eq.
    + eapply path_one. rewrite dget_dset_neq by congruence. exact E.
  - destruct (String.eqb_spec k' k) as [->|N].
    + eapply path_more; [apply dget_dset_eq|]. rewrite E. simpl. now apply IH.
    + eapply path_more; [rewrite dget_dset_neq by congruence; exact E|exact P].
Qed.

(** nothing else becomes followable *)
Lemma set_key_only ks : forall d p, path_in (set_key d ks) p -> path_in d p \/ exists q, ks = p ++ q.
Proof.
  induction ks as [|k ks IH]; intros d p H; [now left|]. simpl in H.
  inversion H as [? k' t E|? k' t p' E P]; subst.
  - rewrite dget_dset in E. destruct (String.eqb_spec k' k) as [->|N].
    + right. now exists ks.
    + left. eapply path_one; eauto.
  - rewrite dget_dset in E. destruct (String.eqb_spec k' k) as [->|N].
    + injection E as <-. simpl in P. apply IH in P as [P|[q ->]].
      * left. destruct (dget d k) as [t'|] eqn:E'.
        -- eapply path_more; eauto.
        -- inversion P; discriminate.
      * right. now exists q.
    + left. eapply path_more; eauto.
Qed.

Lemma uniq_dset d k t : uniq d -> uniq (nt_kids t) -> uniq (dset d k t).
Proof.
  intros [d' H1 H2] Ht. constructor; [now apply NoDup_dset|].
  intros k' t' Hi. apply In_dget in Hi; [|now apply NoDup_dset].
  rewrite dget_dset in Hi. destruct (String.eqb k' k); [injection Hi as <-; exact Ht|].
  apply dget_Some_In in Hi. eauto.
Qed.
Lemma uniq_set_key ks : forall d, uniq d -> uniq (set_key d ks).
Proof.
  induction ks as [|k ks IH]; intros d U; [exact U|]. simpl. apply uniq_dset; [exact U|]. simpl.
  apply IH. destruct (dget d k) eqn:E; [eapply uniq_sub; eauto|apply uniq_nil].
Qed.

Lemma path_key d p v : path_in d (p ++ [v]) -> key_in v d.
Proof.
  revert d. induction p as [|k p IH]; simpl; intros d H.
  - inversion H as [? ? t E|? ? t p' E P]; subst; apply dget_Some_In in E; eapply key_here; eauto.
  - inversion H as [? ? t E|? ? t p' E P]; subst.
    + destruct p; discriminate.
    + apply dget_Some_In in E. eapply key_below; eauto.
Qed.

(** ** The traversal *)
Definition keeps (d d' : dict ntree) : Prop := forall p, path_in d p -> path_in d' p.

Lemma traverse_own_ok out key : uniq out ->
  uniq (traverse_own out key) /\ keeps out (traverse_own out key) /\ key_in key (traverse_own out key).
Proof.
  intros U. unfold traverse_own. destruct (get_path out key) as [[|x p]|] eqn:E.
  - exfalso. destruct (get_path_some _ _ _ U E) as [_ [q Hq]]. destruct q; discriminate.
  - destruct (get_path_some _ _ _ U E) as [P [q Hq]]. split; [exact U|]. split; [intros r; auto|].
    rewrite Hq in P. eapply path_key; eauto.
  - split; [now apply uniq_set_key|]. split; [intros r; now apply set_key_keeps|].
    apply (path_key _ []). apply set_key_path. discriminate.
Qed.

Lemma key_in_path d v : uniq d -> key_in v d -> exists p, path_in d (p ++ [v]).
Proof.
  intros U K. induction K as [d t H|d k t H K IH].
  - exists []. inversion U; subst. apply (path_one _ _ t). apply In_dget; assumption.
  - inversion U as [? ND Hs]; subst. destruct IH as [p P]; [eauto|].
    exists (k :: p). eapply path_more; [apply In_dget; eauto|exact P].
Qed.

Lemma traverse_child_ok key out child : uniq out -> key_in key out ->
  uniq (traverse_child key out child) /\ keeps out (traverse_child key out child) /\
  exists p, path_in (traverse_child key out child) (p ++ [key; child]).
Proof.
  intros U K. unfold traverse_child.
  destruct (get_path out key) as [[|x p]|] eqn:E.
  - exfalso. destruct (get_path_some _ _ _ U E) as [_ [q Hq]]. destruct q; discriminate.
  - destruct (get_path_some _ _ _ U E) as [P [q Hq]]. rewrite Hq.
    split; [now apply uniq_set_key|]. split; [intros r; now apply set_key_keeps|].
    exists q. change [key; child] with ([key] ++ [child]). rewrite app_assoc.
    apply set_key_path. destruct q; discriminate.
  - apply get_path_none in E. contradiction.
Qed.

Lemma keeps_refl d : keeps d d.
Proof. intros p H; exact H. Qed.
Lemma keeps_trans a b c : keeps a b -> keeps b c -> keeps a c.
Proof. intros H1 H2 p H. auto. Qed.
Lemma keeps_key a b v : uniq a -> keeps a b -> key_in v a -> key_in v b.
Proof. intros U H K. destruct (key_in_path _ _ U K) as [p P]. apply (path_key _ p). auto. Qed.

Lemma traverse_children_ok key l : forall out, uniq out -> key_in key out ->
  let out' := fold_left (traverse_child key) l out in
  uniq out' /\ keeps out out' /\ forall c, In c l -> exists p, path_in out' (p ++ [key; c]).
Proof.
  induction l as [|c l IH]; intros out U K; simpl.
  - split; [exact U|]. split; [apply keeps_refl|]. intros c [].
  - destruct (traverse_child_ok key out c U K) as (U1 & K1 & [p P]).
    destruct (IH (traverse_child key out c) U1 (keeps_key _ _ _ U K1 K)) as (U2 & K2 & H2).
    split; [exact U2|]. split; [eapply keeps_trans; eauto|].
    intros c' [<-|Hc]; [exists p; auto|auto].
Qed.

Lemma traverse_model_ok classes key out : uniq out ->
  let out' := traverse_model classes out key in
  uniq out' /\ keeps out out' /\ key_in key out' /\
  forall c child, dget classes key = Some c -> In child (dkeys (c_children c)) ->
    exists p, path_in out' (p ++ [key; child]).
Proof.
  intros U. unfold traverse_model. cbv zeta. destruct (traverse_own_ok out key U) as (U1 & K1 & I1).
  destruct (dget classes key) as [c|].
  - destruct (traverse_children_ok key (dkeys (c_children c)) _ U1 I1) as (U2 & K2 & H2).
    split; [exact U2|]. split; [exact (keeps_trans _ _ _ K1 K2)|]. split; [exact (keeps_key _ _ _ U1 K2 I1)|].
    intros c' child E. injection E as <-. auto.
  - split; [exact U1|]. split; [exact K1|]. split; [exact I1|]. intros ? ? E. discriminate.
Qed.

Lemma traversal_ok classes keys : forall out, uniq out ->
  let out' := fold_left (traverse_model classes) keys out in
  uniq out' /\ keeps out out' /\ forall key, In key keys -> key_in key out' /\
  forall c child, dget classes key = Some c -> In child (dkeys (c_children c)) ->
    exists p, path_in out' (p ++ [key; child]).
Proof.
  induction keys as [|k keys IH]; intros out U; simpl.
  - split; [exact U|]. split; [apply keeps_refl|]. intros ? [].
  - destruct (traverse_model_ok classes k out U) as (U1 & K1 & I1 & H1).
    destruct (IH _ U1) as (U2 & K2 & H2).
    split; [exact U2|]. split; [eapply keeps_trans; eauto|].
    intros key [<-|Hk]; [|auto]. split; [exact (keeps_key _ _ _ U1 K2 I1)|].
    intros c child E Hc. destruct (H1 c child E Hc) as [p P]. eauto.
Qed.

Lemma initial_order_all top classes n : In n (initial_value_order top classes) <-> In n top \/ In n (dkeys classes).
Proof.
  unfold initial_value_order. rewrite in_app_iff, filter_In, In_ssort, In_sdedup, negb_true_iff, smem_false.
  destruct (in_dec string_dec n top); tauto.
Qed.

Lemma tree_traversal_complete top classes :
  uniq (tree_traversal top classes) /\
  (forall n, In n top \/ In n (dkeys classes) -> key_in n (tree_traversal top classes)) /\
  (forall n c child, dget classes n = Some c -> In child (dkeys (c_children c)) ->
     exists p, path_in (tree_traversal top classes) (p ++ [n; child])).
Proof.
  unfold tree_traversal. destruct (traversal_ok classes (initial_value_order top classes) [] uniq_nil) as (U & _ & H).
  split; [exact U|]. split.
  - intros n Hn. apply H. now apply initial_order_all.
  - intros n c child E Hc. eapply H; eauto. apply initial_order_all. right. eapply dget_Some_key; eauto.
Qed.

(** ** Rendering *)
Lemma String_app_assoc (a b c : string) : ((a ++ b) ++ c = a ++ b ++ c)%string.
Proof. induction a as [|x a IHa]; simpl; [reflexivity|now rewrite IHa]. Qed.
Lemma tree_lines_preorder : forall t prefix,
  Forall2 (fun k line => exists margin, line = (margin ++ k)%string) (preorder t) (tree_lines t prefix).
Proof.
  induction t as [kids IH] using ntree_ind'. intros prefix. simpl.
  induction kids as [|[k t] kids IHk]; simpl; [constructor|].
  inversion IH as [|? ? H1 H2]; subst. simpl in H1. constructor.
  - destruct kids; eexists; rewrite <- String_app_assoc; reflexivity.
  - apply Forall2_app; [apply H1|]. now apply IHk.
Qed.

Lemma concat_one a l : String.concat "" (a :: l) = (a ++ String.concat "" l)%string.
Proof. destruct l; [|reflexivity]. cbn. induction a; cbn; congruence. Qed.
Lemma walk_deep t x : In x (walk t) -> fst x <> [].
Proof.
  induction t as [kids IH] using ntree_ind'. cbn [walk]. induction kids as [|[k t] kids IHk]; [intros []|].
  inversion IH as [|? ? H1 H2]; subst. intros [<-|I]; [discriminate|]. apply in_app_or in I as [I|I]; [|now apply IHk].
  apply in_map_iff in I as (y & <- & _). discriminate.
Qed.
Lemma drawn_below (b : bool) x : fst x <> [] -> drawn (b :: fst x, snd x) = ((if b then "    " else "│   ") ++ drawn x)%string.
Proof.
  destruct x as [bs k]. cbn [fst snd]. intros N. unfold drawn. cbn [fst snd]. destruct bs as [|b' bs]; [congruence|].
  change (removelast (b :: b' :: bs)) with (b :: removelast (b' :: bs)). change (last (b :: b' :: bs) false) with (last (b' :: bs) false).
  cbn [map]. rewrite concat_one, String_app_assoc. reflexivity.
Qed.
Lemma tree_lines_drawn : forall t prefix, tree_lines t prefix = map (fun x => prefix ++ drawn x)%string (walk t).
Proof.
  induction t as [kids IH] using ntree_ind'. intros prefix. cbn [tree_lines walk].
  induction kids as [|[k t] kids IHk]; [reflexivity|]. inversion IH as [|? ? H1 H2]; subst. cbn [snd] in H1. rewrite (IHk H2). cbn [map].
  set (b := match kids with [] => true | _ => false end). f_equal; try (destruct b; reflexivity). rewrite map_app, H1, map_map. f_equal.
  apply map_ext_in. intros x I. rewrite (drawn_below b x (walk_deep _ _ I)), String_app_assoc. destruct b; reflexivity.
Qed.
Lemma walk_preorder : forall t, map snd (walk t) = preorder t.
Proof.
  induction t as [kids IH] using ntree_ind'. cbn [walk preorder]. induction kids as [|[k t] kids IHk]; [reflexivity|].
  inversion IH as [|? ? H1 H2]; subst. cbn [snd] in H1. cbn [flat_map map fst snd app]. rewrite map_app, map_map. cbn [snd]. change (map (fun x => snd x) (walk t)) with (map snd (walk t)). rewrite H1. f_equal. f_equal. now apply IHk.
Qed.
