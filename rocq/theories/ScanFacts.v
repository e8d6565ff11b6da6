(** * ScanFacts: runs in which the server answers SCAN as it likes. *)
From Coq Require Import Lia.
From Verif Require Export ScanSpec ConcTop CutFacts.
From Verif Require Import SyncFrom DiffFacts.

Lemma listing_refl l : listing l l.
Proof. intros k. reflexivity. Qed.
Lemma listing_sym l l' : listing l l' -> listing l' l.
Proof. intros H k. symmetry. apply H. Qed.
Lemma listing_trans a b c : listing a b -> listing b c -> listing a c.
Proof. intros H G k. rewrite (H k). apply G. Qed.
Lemma listing_empty l l' : listing l l' -> Nat.eqb (length l) 0 = Nat.eqb (length l') 0.
Proof.
  intros H. destruct l as [|x l], l' as [|y l']; try reflexivity; exfalso; [apply (H y); now left|apply (H x); now left].
Qed.

(** ** What a program can end with *)
Fixpoint louts {A} (p : cprog A) (d d' : dict obj) (x : A) : Prop :=
  match p with
  | Done y => d' = d /\ x = y
  | CGet k f => louts (f (dget d k)) d d' x
  | CSet k o p => louts p (dset d k o) d' x
  | CExists k f => louts (f (match dget d k with Some _ => true | None => false end)) d d' x
  | CDelete k p => louts p (ddel d k) d' x
  | CScan pat f => exists l, listing l (filter (glob pat) (dkeys d)) /\ louts (f l) d d' x
  end.
Lemma louts_runs {A} (p : cprog A) : forall d d' x, louts p d d' x -> many rstep (d, p) (d', Done x).
Proof.
  induction p as [y|k f IH|k o p IH|k f IH|k p IH|pat f IH]; intros d d' x H; cbn [louts] in H.
  - destruct H as [-> ->]. apply many_none.
  - eapply many_more; [apply as_before, do_get|now apply IH].
  - eapply many_more; [apply as_before, do_set|now apply IH].
  - eapply many_more; [apply as_before, do_exists|now apply IH].
  - eapply many_more; [apply as_before, do_delete|now apply IH].
  - destruct H as (l & L & H). eapply many_more; [now apply (any_listing d pat f l)|now apply IH].
Qed.
Lemma runs_louts {A} (s : dict obj * cprog A) s' : many rstep s s' -> forall x, snd s' = Done x -> louts (snd s) (fst s) (fst s') x.
Proof.
  induction 1 as [[d p]|s s1 s2 H _ IH]; intros x E.
  - cbn [fst snd] in *. subst p. split; reflexivity.
  - specialize (IH x E). inversion H as [? ? C|d pat f l L]; subst; [inversion C; subst; cbn [fst snd louts] in *; try exact IH|].
    + eexists. split; [apply listing_refl|exact IH].
    + exists l. split; [exact L|exact IH].
Qed.
Lemma louts_iff {A} (p : cprog A) d d' x : many rstep (d, p) (d', Done x) <-> louts p d d' x.
Proof. split; [intros H; exact (runs_louts _ _ H x eq_refl)|apply louts_runs]. Qed.
Lemma louts_then {A B} (p : cprog A) (g : A -> cprog B) : forall d d' x, louts (cthen p g) d d' x <-> exists d1 y, louts p d d1 y /\ louts (g y) d1 d' x.
Proof.
  induction p as [y|k f IH|k o p IH|k f IH|k p IH|pat f IH]; intros d d' x; cbn [cthen louts]; try apply IH.
  - split; [intros H; now exists d, y|intros (d1 & z & (-> & ->) & H); exact H].
  - split.
    + intros (l & L & H). apply IH in H as (d1 & y & H & G). exists d1, y. split; [now exists l|exact G].
    + intros (d1 & y & (l & L & H) & G). exists l. split; [exact L|]. apply IH. now exists d1, y.
Qed.
Lemma louts_bind {St A B} (m : SM St A) (k : A -> SM St B) s d d' s' r : louts (cbind m k s) d d' (s', r) ->
  exists d1 s1 r1, louts (m s) d d1 (s1, r1) /\ match r1 with Ok x => louts (k x s1) d1 d' (s', r) | Err e => d' = d1 /\ s' = s1 /\ r = Err e end.
Proof.
  intros H. apply louts_then in H as (d1 & [s1 r1] & H & G). exists d1, s1, r1. split; [exact H|]. cbn [fst snd] in G. destruct r1 as [x|e]; [exact G|].
  cbn [louts] in G. destruct G as [-> G]. now injection G as -> ->.
Qed.
Lemma louts_fmap {A B} (f : A -> B) (m : CM A) s d d' s' r : louts (cfmap f m s) d d' (s', r) ->
  exists r1, louts (m s) d d' (s', r1) /\ r = match r1 with Ok x => Ok (f x) | Err e => Err e end.
Proof.
  intros H. apply louts_bind in H as (d1 & s1 & r1 & H & G). exists r1. destruct r1 as [x|e].
  - cbn in G. destruct G as [-> G]. injection G as -> ->. auto.
  - destruct G as (-> & -> & ->). auto.
Qed.
Lemma louts_silent {A} (p : cprog A) : silent p -> forall d d' x, louts p d d' x -> d' = d.
Proof.
  induction 1 as [y|k f _ IH|k f _ IH|pat f _ IH]; intros d d' x H; cbn [louts] in H; [now destruct H|now apply IH in H|now apply IH in H|]. destruct H as (l & _ & H). now apply IH in H.
Qed.

(** ** Programs to which the order does not matter *)
Inductive even {A} : cprog A -> Prop :=
| ev_done x : even (Done x)
| ev_get k f : (forall x, even (f x)) -> even (CGet k f)
| ev_set k o p : even p -> even (CSet k o p)
| ev_exists k f : (forall x, even (f x)) -> even (CExists k f)
| ev_delete k p : even p -> even (CDelete k p)
| ev_scan pat f : (forall l l', listing l l' -> f l = f l') -> (forall l, even (f l)) -> even (CScan pat f).
Lemma even_then {A B} (p : cprog A) (g : A -> cprog B) : even p -> (forall x, even (g x)) -> even (cthen p g).
Proof.
  intros H G. induction H as [x|k f _ IH|k o p _ IH|k f _ IH|k p _ IH|pat f E _ IH]; cbn [cthen]; [apply G|now constructor..|].
  constructor; [|exact IH]. intros l l' L. now rewrite (E l l' L).
Qed.
Lemma even_step {A} (p : cprog A) d d' p' : even p -> rstep (d, p) (d', p') -> cstep (d, p) (d', p') /\ even p'.
Proof.
  intros H R. inversion R as [? ? C|d0 pat f l L]; subst.
  - split; [exact C|]. inversion C; subst; inversion H; subst; auto.
  - inversion H as [| | | | |? ? E EF]; subst. rewrite (E l _ L). split; [apply do_scan|apply EF].
Qed.
Lemma even_louts {A} (p : cprog A) : even p -> forall d d' x, louts p d d' x <-> solo d p = (d', x).
Proof.
  induction 1 as [y|k f _ IH|k o p _ IH|k f _ IH|k p _ IH|pat f E _ IH]; intros d d' x; cbn [louts solo]; try apply IH.
  - split; [intros [-> ->]; reflexivity|intros [= -> ->]; auto].
  - split.
    + intros (l & L & H). rewrite <- (E l _ L). now apply IH.
    + intros H. eexists. split; [apply listing_refl|]. now apply IH.
Qed.

Definition ceven {St A} (c : SM St A) : Prop := forall w, even (c w).
Lemma ceven_here {St A} (m : M St A) : ceven (here m).
Proof. intros w. constructor. Qed.
Lemma ceven_bind {St A B} (m : SM St A) (k : A -> SM St B) : ceven m -> (forall x, ceven (k x)) -> ceven (cbind m k).
Proof. intros H K w. apply even_then; [apply H|]. intros [w1 [x|e]]; cbn [fst snd]; [apply K|constructor]. Qed.
Lemma ceven_try {St A} (m : SM St A) p h : ceven m -> (forall e, ceven (h e)) -> ceven (ctry m p h).
Proof. intros H K w. apply even_then; [apply H|]. intros [w1 [x|e]]; cbn [fst snd]; [constructor|]. destruct (p e); [apply K|constructor]. Qed.
Lemma ceven_for {St A} (l : list A) (f : A -> SM St unit) : (forall x, ceven (f x)) -> ceven (cforM l f).
Proof. intros H. induction l as [|x l IH]; cbn [cforM]; [apply ceven_here|]. apply ceven_bind; [apply H|intros _; exact IH]. Qed.
Lemma ceven_map {St A B} (f : A -> SM St B) l : (forall x, ceven (f x)) -> ceven (cmapM f l).
Proof. intros H. induction l as [|x l IH]; cbn [cmapM]; [apply ceven_here|]. apply ceven_bind; [apply H|intros y]. apply ceven_bind; [exact IH|intros ys; apply ceven_here]. Qed.
Lemma ceven_get_ k : ceven (cget k). Proof. intros w. repeat constructor. Qed.
Lemma ceven_set k o : ceven (cset k o). Proof. intros w. repeat constructor. Qed.
Lemma ceven_exists k : ceven (cexists k). Proof. intros w. repeat constructor. Qed.
Lemma ceven_delete k : ceven (cdelete k). Proof. intros w. repeat constructor. Qed.
Lemma ceven_truthy x : ceven (c_truthy x).
Proof.
  intros w. unfold c_truthy. destruct x as [b|]; [|constructor]. unfold cbind, c_count_all. destruct (nth_error (w_ads w) b) as [ad|]; [|constructor].
  destruct (ad_store ad) as [d|sid]; cbn [cthen fst snd]; [constructor|]. constructor; [|intros l; constructor].
  intros l l' L. unfold here. now rewrite (listing_empty l l' L).
Qed.
Ltac ev := repeat first
  [ apply ceven_here | apply ceven_truthy | apply ceven_get_ | apply ceven_set | apply ceven_exists | apply ceven_delete
  | apply ceven_bind; [|intros ?] | apply ceven_try; [|intros ?] | apply ceven_map; intros ? | apply ceven_for; intros ?
  | match goal with |- ceven (match ?x with _ => _ end) => destruct x end ].
Lemma ceven_load a k : ceven (c_load a k). Proof. unfold c_load. ev. Qed.
Lemma ceven_get a m i : ceven (c_get a m i).
Proof. unfold c_get. cbv zeta. ev; apply ceven_load. Qed.
Lemma ceven_by_uids a us m : ceven (c_get_by_uids a us m).
Proof. unfold c_get_by_uids. ev; apply ceven_load. Qed.
Lemma ceven_gon a m i : ceven (c_get_or_none a m i).
Proof. unfold c_get_or_none. ev; apply ceven_get. Qed.
Lemma ceven_put k o : ceven (c_put k o).
Proof. apply ceven_set. Qed.
Lemma ceven_add a r : ceven (c_add a r).
Proof. unfold c_add. cbv zeta. ev. Qed.
Lemma ceven_update a r : ceven (c_update a r).
Proof. unfold c_update. cbv zeta. ev. Qed.
Lemma ceven_item a t u : ceven (c_remove_item a t u).
Proof. unfold c_remove_item. ev. Qed.
Lemma ceven_clear r : ceven (c_clear_adapter r).
Proof. unfold c_clear_adapter. ev. Qed.
Lemma ceven_remove fuel : forall a r b, ceven (c_remove fuel a r b).
Proof.
  induction fuel as [|fuel IH]; intros a r b; cbn [c_remove]; [apply ceven_here|]. ev; first [apply IH|apply ceven_get|apply ceven_item|apply ceven_clear].
Qed.
Lemma ceven_goi a c ids attrs : ceven (c_get_or_instantiate a c ids attrs).
Proof. unfold c_get_or_instantiate. ev; first [apply ceven_get|apply ceven_add]. Qed.
Lemma ceven_goa a r : ceven (c_get_or_add_model_instance a r).
Proof. unfold c_get_or_add_model_instance. ev; first [apply ceven_get|apply ceven_add]. Qed.
Lemma ceven_uoi a c ids attrs : ceven (c_update_or_instantiate a c ids attrs).
Proof. unfold c_update_or_instantiate. ev; apply ceven_goi. Qed.
Lemma ceven_uoa a r : ceven (c_update_or_add_model_instance a r).
Proof. unfold c_update_or_add_model_instance. ev; apply ceven_goa. Qed.
Lemma ceven_dlift {A} (c : CM A) : ceven c -> ceven (cdlift c).
Proof. intros H s. apply even_then; [apply H|]. intros x. constructor. Qed.
Lemma ceven_slift {A} (c : CM A) : ceven c -> ceven (cslift c).
Proof. intros H s. apply even_then; [apply H|]. intros x. constructor. Qed.

(** *** the differ below the top level *)
Lemma ceven_fetch_uids a us t : ceven (c_fetch_by_uids a us t).
Proof. unfold c_fetch_by_uids. ev; apply ceven_dlift, ceven_by_uids. Qed.
Lemma ceven_children a o f t : ceven (c_fetch_children a o f t).
Proof. destruct o as [o|]; cbn [c_fetch_children]; [|apply ceven_here]. apply ceven_bind; [apply ceven_here|intros us; apply ceven_fetch_uids]. Qed.
Lemma ceven_types env rec so do : (forall ss dd, ceven (rec ss dd)) -> forall mapping gs, ceven (c_diff_child_types env rec so do mapping gs).
Proof.
  intros R. induction mapping as [|[t f] mapping IH]; intros gs; cbn [c_diff_child_types]; [apply ceven_here|].
  apply ceven_bind; [apply ceven_children|intros ss]. apply ceven_bind; [apply ceven_children|intros dd]. apply ceven_bind; [apply R|intros es]. apply ceven_bind; [apply ceven_here|intros gs'; apply IH].
Qed.
Lemma ceven_pair env rec so do : (forall ss dd, ceven (rec ss dd)) -> ceven (c_diff_object_pair env rec so do).
Proof.
  intros R. unfold c_diff_object_pair. destruct (match so with Some s => Some s | None => do end) as [o|]; [|apply ceven_here].
  do 2 (apply ceven_bind; [apply ceven_here|intros ?]). destruct (skip_pair _ so do); [ev|].
  do 2 (apply ceven_bind; [apply ceven_here|intros ?]). apply ceven_bind; [now apply ceven_types|intros gs; apply ceven_here].
Qed.
Lemma ceven_list fuel env : forall ss dd, ceven (c_diff_object_list fuel env ss dd).
Proof.
  induction fuel as [|fuel IH]; intros ss dd; cbn [c_diff_object_list]; [apply ceven_here|]. unfold c_diff_list_body. cbv zeta.
  do 4 (apply ceven_bind; [apply ceven_here|intros ?]). generalize (pair_up x x0). induction d as [|[u [so do]] l IHl]; cbn [c_diff_pairs]; [apply ceven_here|].
  apply ceven_bind; [now apply ceven_pair|intros e]. apply ceven_bind; [exact IHl|intros es; apply ceven_here].
Qed.

(** *** the syncer *)
Lemma ceven_kids l : Forall (fun k => forall p, ceven (k p)) l -> forall p b, ceven (c_run_kids l p b).
Proof. induction 1 as [|k l H _ IH]; intros p b; cbn [c_run_kids]; [apply ceven_here|]. apply ceven_bind; [apply H|intros x; apply IH]. Qed.
Lemma ceven_dst env c ids : ceven (c_get_dst_model env c ids).
Proof. unfold c_get_dst_model. ev; apply ceven_get. Qed.
Lemma ceven_apply env a parent r sk : ceven (c_apply_to_store env a parent r sk).
Proof. unfold c_apply_to_store. ev; first [apply ceven_add|apply ceven_remove]. Qed.
Lemma ceven_body env e parent l : Forall (fun k => forall p, ceven (k p)) l -> ceven (c_sync_body env e parent l).
Proof.
  intros F. unfold c_sync_body. cbv zeta. do 5 (apply ceven_bind; [apply ceven_here|intros ?]). apply ceven_bind; [apply ceven_slift, ceven_gon|intros _].
  apply ceven_bind; [apply ceven_slift, ceven_dst|intros dm]. do 3 (apply ceven_bind; [apply ceven_here|intros ?]).
  apply ceven_bind; [destruct (_ && _); [now apply ceven_kids|apply ceven_here]|intros _]. apply ceven_bind; [apply ceven_here|intros cm].
  destruct (snd cm) as [r|]; [|apply ceven_here]. apply ceven_bind; [apply ceven_here|intros s']. apply ceven_bind; [apply ceven_slift, ceven_apply|intros [|]]; [apply ceven_here|].
  apply ceven_bind; [apply ceven_here|intros _]. destruct (_ || _); [now apply ceven_kids|apply ceven_here].
Qed.
Lemma ceven_ordered env ord gs : (forall x, In x (ordered ord (fun e => e) gs) -> forall p, ceven (c_sync_elem ord env x p)) ->
  Forall (fun k => forall p, ceven (k p)) (ordered ord (c_sync_elem ord env) gs).
Proof.
  intros H. rewrite (ordered_map ord (c_sync_elem ord env)). apply Forall_forall. intros k I. apply in_map_iff in I as (x & <- & I). now apply H.
Qed.
Lemma ceven_elem env ord e : forall p, ceven (c_sync_elem ord env e p).
Proof.
  induction e as [e IH] using elem_ind'. intros p. assert (Y : c_sync_elem ord env e p = c_sync_body env e p (ordered ord (c_sync_elem ord env) (e_kids e))) by now destruct e.
  rewrite Y. apply ceven_body, ceven_ordered. intros x I. apply ordered_sub, In_children in I as (t & g & n & G & I). exact (IH t g n x G I).
Qed.
Lemma ceven_run env d : ceven (c_run_sync env d).
Proof.
  unfold c_run_sync. apply ceven_bind; [|intros b; apply ceven_here]. intros w. apply even_then; [|intros x; constructor].
  apply ceven_kids, ceven_ordered. intros x _ p. apply ceven_elem.
Qed.

(** *** calls and histories *)
Lemma ceven_call a c : no_listing c -> ceven (issued a c).
Proof.
  intros N. destruct c; cbn [issued no_listing] in *; try contradiction; (apply ceven_bind; [|intros ?; apply ceven_here]).
  - apply ceven_add. - apply ceven_update. - apply ceven_remove. - apply ceven_item. - apply ceven_get. - apply ceven_gon. - apply ceven_by_uids.
  - apply ceven_goi. - apply ceven_goa. - apply ceven_uoi. - apply ceven_uoa. - apply ceven_here. - apply ceven_here.
  - destruct given as [d|]; [|contradiction]. unfold c_sync_from. apply ceven_bind; [apply ceven_here|intros _]. rewrite (proj2 (truthy_len d) N).
    apply ceven_bind; [apply ceven_here|intros x]. apply ceven_run.
Qed.
Lemma even_all l : Forall (fun ac => no_listing (snd ac)) l -> forall w, even (issued_all l w).
Proof.
  induction 1 as [|[a c] l N _ IH]; intros w; cbn [issued_all]; [constructor|]. apply even_then; [now apply ceven_call|]. intros x. apply even_then; [apply IH|intros y; constructor].
Qed.
Lemma even_system {A} (s s' : dict obj * list (cprog A)) : many rsys_step s s' -> Forall even (snd s) -> many sys_step s s'.
Proof.
  induction 1 as [s|s s1 s2 H _ IH]; intros E; [apply many_none|]. inversion H as [d d' ps n p p' N R]; subst. cbn [snd] in E.
  pose proof (proj1 (Forall_forall _ _) E p (nth_error_In _ _ N)) as EP. destruct (even_step p d d' p' EP R) as [C EP'].
  eapply many_more; [econstructor; eassumption|]. apply IH. cbn [snd]. clear - E EP'. revert n. induction E as [|q ps Q F IHE]; intros n; [destruct n; constructor|].
  destruct n as [|n]; cbn [list_set]; constructor; auto.
Qed.
