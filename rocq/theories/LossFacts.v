(** * LossFacts: a call whose command fails stops there and raises the exception of the client. *)
From Verif Require Export LossSpec CutSync.

(** ** The same commands, and nothing after a failure *)
Section Faith.
  Context {S A : Type}.
  Notation D := (S * result A)%type.
  (** what follows an exception of the client *)
  Definition stops (p : exn -> fprog D) : Prop := forall x, foreign x -> exists s, p x = FDone (s, Err x).
  Inductive faith : fprog D -> cprog D -> Prop :=
  | fa_done y : faith (FDone y) (Done y)
  | fa_get k f g : (forall v, faith (f (Ok v)) (g v)) -> stops (fun x => f (Err x)) -> faith (FGet k f) (CGet k g)
  | fa_set k o f q : faith (f (Ok tt)) q -> stops (fun x => f (Err x)) -> faith (FSet k o f) (CSet k o q)
  | fa_exists k f g : (forall v, faith (f (Ok v)) (g v)) -> stops (fun x => f (Err x)) -> faith (FExists k f) (CExists k g)
  | fa_delete k f q : faith (f (Ok tt)) q -> stops (fun x => f (Err x)) -> faith (FDelete k f) (CDelete k q)
  | fa_scan k f g : (forall v, faith (f (Ok v)) (g v)) -> stops (fun x => f (Err x)) -> faith (FScan k f) (CScan k g).
End Faith.
Lemma faith_then {S A T B} (p : fprog (S * result A)) q (k : S * result A -> fprog (T * result B)) k' :
  faith p q -> (forall y, faith (k y) (k' y)) -> (forall s, stops (fun x => k (s, Err x))) -> faith (fthen p k) (cthen q k').
Proof.
  intros H K E. induction H; cbn [fthen cthen]; auto; constructor; auto; intros x F; match goal with H : stops _ |- _ => destruct (H x F) as (s & ->) end; cbn [fthen]; now apply E.
Qed.
Definition fsim {S A} (m : FSM S A) (c : SM S A) : Prop := forall s, faith (m s) (c s).
Lemma fs_here {S A} (m : M S A) : fsim (fhere m) (here m).
Proof. intros s. constructor. Qed.
Lemma fs_bind {S A B} (m : FSM S A) (c : SM S A) (k : A -> FSM S B) k' : fsim m c -> (forall a, fsim (k a) (k' a)) -> fsim (fbind m k) (cbind c k').
Proof.
  intros H K s. apply faith_then; [apply H| |].
  - intros [s' [a|e]]; cbn [fst snd]; [apply K|constructor].
  - intros s' x F. now exists s'.
Qed.
Lemma fs_try {S A} (m : FSM S A) (c : SM S A) p h h' : fsim m c -> (forall x, foreign x -> p x = false) -> (forall e, fsim (h e) (h' e)) -> fsim (ftry m p h) (ctry c p h').
Proof.
  intros H P K s. apply faith_then; [apply H| |].
  - intros [s' [a|e]]; cbn [fst snd]; [constructor|]. destruct (p e); [apply K|constructor].
  - intros s' x F. cbn [fst snd]. rewrite (P x F). now exists s'.
Qed.
Lemma fs_forM {S A} (l : list A) (f : A -> FSM S unit) g : (forall x, fsim (f x) (g x)) -> fsim (fforM l f) (cforM l g).
Proof. intros H. induction l as [|x l IH]; cbn [fforM cforM]; [apply fs_here|]. apply fs_bind; auto. Qed.
Lemma fs_mapM {S A B} (l : list A) (f : A -> FSM S B) g : (forall x, fsim (f x) (g x)) -> fsim (fmapM f l) (cmapM g l).
Proof. intros H. induction l as [|x l IH]; cbn [fmapM cmapM]; [apply fs_here|]. apply fs_bind; auto. intros y. apply fs_bind; auto. intros ys. apply fs_here. Qed.
Lemma fs_get k : fsim (fget k) (cget k).
Proof. intros s. constructor; [constructor|]. intros x F. now exists s. Qed.
Lemma fs_set k o : fsim (fset k o) (cset k o).
Proof. intros s. constructor; [constructor|]. intros x F. now exists s. Qed.
Lemma fs_exists k : fsim (fexists k) (cexists k).
Proof. intros s. constructor; [constructor|]. intros x F. now exists s. Qed.
Lemma fs_delete k : fsim (fdelete k) (cdelete k).
Proof. intros s. constructor; [constructor|]. intros x F. now exists s. Qed.
Lemma fs_scan k : fsim (fscan k) (cscan k).
Proof. intros s. constructor; [constructor|]. intros x F. now exists s. Qed.
Lemma fs_nf x : foreign x -> is_not_found x = false. Proof. now intros [H _]. Qed.

Ltac fs1 := first
  [ apply fs_here | apply fs_get | apply fs_set | apply fs_exists | apply fs_delete | apply fs_scan | assumption | solve [auto 2 with fsims]
  | apply fs_bind; [|intros ?] | apply fs_try; [|exact fs_nf|intros ?] | apply fs_forM; intros ? | apply fs_mapM; intros ?
  | match goal with |- fsim (match ?x with _ => _ end) _ => destruct x end
  | match goal with H : forall _, fsim _ _ |- _ => apply H end ].
Ltac fs := cbv zeta; repeat (fs1; cbv zeta).

(** ** The store methods *)
Lemma fs_load a k : fsim (f_load a k) (c_load a k). Proof. unfold f_load, c_load. fs. Qed.
Lemma fs_put k o : fsim (f_put k o) (c_put k o). Proof. unfold f_put, c_put. fs. Qed.
#[local] Hint Resolve fs_load fs_put : fsims.
Lemma fs_names a : fsim (f_get_all_model_names a) (c_get_all_model_names a). Proof. unfold f_get_all_model_names, c_get_all_model_names. fs. Qed.
Lemma fs_st_get a m i : fsim (f_get a m i) (c_get a m i). Proof. unfold f_get, c_get. fs. Qed.
Lemma fs_get_all a m : fsim (f_get_all a m) (c_get_all a m). Proof. unfold f_get_all, c_get_all. fs. Qed.
Lemma fs_by_uids a us m : fsim (f_get_by_uids a us m) (c_get_by_uids a us m). Proof. unfold f_get_by_uids, c_get_by_uids. fs. Qed.
Lemma fs_count_all a : fsim (f_count_all a) (c_count_all a).
Proof.
  intros w. unfold f_count_all, c_count_all. destruct (nth_error (w_ads w) a) as [ad|]; [|constructor]. destruct (ad_store ad); [constructor|].
  constructor; [intros l; constructor|]. intros x F. now exists w.
Qed.
#[local] Hint Resolve fs_names fs_st_get fs_get_all fs_by_uids fs_count_all : fsims.
Lemma fs_count a m : fsim (f_count a m) (c_count a m).
Proof. unfold f_count, c_count. fs1; [fs1|]. fs1; [|fs]. destruct m as [[[|]|]|]; fs. Qed.
Lemma fs_truthy x : fsim (f_truthy x) (c_truthy x). Proof. unfold f_truthy, c_truthy. fs. Qed.
#[local] Hint Resolve fs_count fs_truthy : fsims.
Lemma fs_add a r : fsim (f_add a r) (c_add a r). Proof. unfold f_add, c_add. fs. Qed.
Lemma fs_update a r : fsim (f_update a r) (c_update a r). Proof. unfold f_update, c_update. fs. Qed.
Lemma fs_remove_item a t u : fsim (f_remove_item a t u) (c_remove_item a t u). Proof. unfold f_remove_item, c_remove_item. fs. Qed.
Lemma fs_clear r : fsim (f_clear_adapter r) (c_clear_adapter r). Proof. unfold f_clear_adapter, c_clear_adapter. fs. Qed.
#[local] Hint Resolve fs_add fs_update fs_remove_item fs_clear : fsims.
Lemma fs_remove fuel a : forall r b, fsim (f_remove fuel a r b) (c_remove fuel a r b).
Proof. induction fuel as [|fuel IH]; intros r b; cbn [f_remove c_remove]; [apply fs_here|]. fs. Qed.
Lemma fs_get_or_instantiate a c ids attrs : fsim (f_get_or_instantiate a c ids attrs) (c_get_or_instantiate a c ids attrs).
Proof. unfold f_get_or_instantiate, c_get_or_instantiate. fs. Qed.
Lemma fs_get_or_add a r : fsim (f_get_or_add_model_instance a r) (c_get_or_add_model_instance a r).
Proof. unfold f_get_or_add_model_instance, c_get_or_add_model_instance. fs. Qed.
Lemma fs_get_or_none a m i : fsim (f_get_or_none a m i) (c_get_or_none a m i). Proof. unfold f_get_or_none, c_get_or_none. fs. Qed.
#[local] Hint Resolve fs_remove fs_get_or_instantiate fs_get_or_add fs_get_or_none : fsims.
Lemma fs_update_or_instantiate a c ids attrs : fsim (f_update_or_instantiate a c ids attrs) (c_update_or_instantiate a c ids attrs).
Proof. unfold f_update_or_instantiate, c_update_or_instantiate. fs. Qed.
Lemma fs_update_or_add a r : fsim (f_update_or_add_model_instance a r) (c_update_or_add_model_instance a r).
Proof. unfold f_update_or_add_model_instance, c_update_or_add_model_instance. fs. Qed.
#[local] Hint Resolve fs_update_or_instantiate fs_update_or_add : fsims.

(** ** The differ *)
Lemma fs_dlift {A} (m : FM A) (c : CM A) : fsim m c -> fsim (fdlift m) (cdlift c).
Proof. intros H s. apply faith_then; [apply H|intros y; constructor|]. intros w x F. eexists. reflexivity. Qed.
Lemma fs_fetch_all a t : fsim (f_fetch_all a t) (c_fetch_all a t).
Proof. unfold f_fetch_all, c_fetch_all. fs1; [apply fs_dlift; fs|fs]. Qed.
Lemma fs_fetch_by_uids a us t : fsim (f_fetch_by_uids a us t) (c_fetch_by_uids a us t).
Proof. unfold f_fetch_by_uids, c_fetch_by_uids. fs1; [apply fs_dlift; fs|fs]. Qed.
#[local] Hint Resolve fs_fetch_all fs_fetch_by_uids : fsims.
Section Rec.
  Variables (env : denv) (rec : list obj -> list obj -> FSM dstate (list elem)) (rec' : list obj -> list obj -> SM dstate (list elem)).
  Hypothesis RR : forall a b, fsim (rec a b) (rec' a b).
  Lemma fs_children a o f t : fsim (f_fetch_children a o f t) (c_fetch_children a o f t).
  Proof. unfold f_fetch_children, c_fetch_children. fs. Qed.
  Lemma fs_child_types so do mapping : forall gs, fsim (f_diff_child_types env rec so do mapping gs) (c_diff_child_types env rec' so do mapping gs).
  Proof.
    induction mapping as [|[t f] mapping IH]; intros gs; cbn [f_diff_child_types c_diff_child_types]; [apply fs_here|].
    fs1; [apply fs_children|]. fs1; [apply fs_children|]. fs1; [apply RR|]. fs1; [apply fs_here|]. apply IH.
  Qed.
  Lemma fs_pair so do : fsim (f_diff_object_pair env rec so do) (c_diff_object_pair env rec' so do).
  Proof.
    unfold f_diff_object_pair, c_diff_object_pair. destruct (match so with Some s => Some s | None => do end); [|apply fs_here].
    fs1; [apply fs_here|]. fs1; [apply fs_here|]. destruct (skip_pair _ _ _); [fs|]. fs1; [apply fs_here|]. fs1; [apply fs_here|]. fs1; [apply fs_child_types|]. apply fs_here.
  Qed.
  Lemma fs_pairs l : fsim (f_diff_pairs env rec l) (c_diff_pairs env rec' l).
  Proof. induction l as [|[k [so do]] l IH]; cbn [f_diff_pairs c_diff_pairs]; [apply fs_here|]. fs1; [apply fs_pair|]. fs1; [apply IH|]. apply fs_here. Qed.
  Lemma fs_list_body a b : fsim (f_diff_list_body env rec a b) (c_diff_list_body env rec' a b).
  Proof. unfold f_diff_list_body, c_diff_list_body. fs1; [apply fs_here|]. fs1; [apply fs_here|]. cbv zeta. fs1; [apply fs_here|]. fs1; [apply fs_here|]. apply fs_pairs. Qed.
End Rec.
Lemma fs_object_list fuel env : forall a b, fsim (f_diff_object_list fuel env a b) (c_diff_object_list fuel env a b).
Proof. induction fuel as [|fuel IH]; intros a b; cbn [f_diff_object_list c_diff_object_list]; [apply fs_here|]. now apply fs_list_body. Qed.
Lemma fs_diff_types fuel env types : forall gs, fsim (f_diff_types fuel env types gs) (c_diff_types fuel env types gs).
Proof.
  induction types as [|t types IH]; intros gs; cbn [f_diff_types c_diff_types]; [apply fs_here|].
  fs1; [apply fs_fetch_all|]. fs1; [apply fs_fetch_all|]. fs1; [apply fs_object_list|]. fs1; [apply fs_here|]. apply IH.
Qed.
Lemma fs_skipped env a b : fsim (f_count_skipped env a b) (c_count_skipped env a b).
Proof. unfold f_count_skipped, c_count_skipped. fs. Qed.
Lemma fs_calculate fuel env dc a b : fsim (f_calculate_diffs fuel env dc a b) (c_calculate_diffs fuel env dc a b).
Proof. unfold f_calculate_diffs, c_calculate_diffs. fs1; [apply fs_skipped|]. fs1; [apply fs_diff_types|]. apply fs_here. Qed.
Lemma fs_diff_from fuel dst src dc flags cb : fsim (f_diff_from fuel dst src dc flags cb) (c_diff_from fuel dst src dc flags cb).
Proof.
  unfold f_diff_from, c_diff_from. fs1; [apply fs_here|]. fs1; [apply fs_here|]. fs1; [apply fs_count_all|]. fs1; [apply fs_count_all|]. cbv zeta.
  intros w. apply faith_then; [apply fs_calculate|intros y; constructor|]. intros s x F. eexists. reflexivity.
Qed.

(** ** The syncer *)
Lemma fs_slift {A} (m : FM A) (c : CM A) : fsim m c -> fsim (fslift m) (cslift c).
Proof. intros H s. apply faith_then; [apply H|intros y; constructor|]. intros w x F. eexists. reflexivity. Qed.
Lemma fs_kids (l : list (option ref -> FSM sstate bool)) l' : Forall2 (fun k k' => forall p, fsim (k p) (k' p)) l l' ->
  forall p b, fsim (f_run_kids l p b) (c_run_kids l' p b).
Proof. induction 1 as [|k k' l l' K _ IH]; intros p b; cbn [f_run_kids c_run_kids]; [apply fs_here|]. fs1; [apply K|]. apply IH. Qed.
Lemma fs_dst_model env c ids : fsim (f_get_dst_model env c ids) (c_get_dst_model env c ids).
Proof. unfold f_get_dst_model, c_get_dst_model. fs. Qed.
Lemma fs_apply env a p r b : fsim (f_apply_to_store env a p r b) (c_apply_to_store env a p r b).
Proof. unfold f_apply_to_store, c_apply_to_store. destruct a as [[]|]; fs. Qed.
Lemma fs_body env e p l l' : Forall2 (fun k k' => forall p, fsim (k p) (k' p)) l l' -> fsim (f_sync_body env e p l) (c_sync_body env e p l').
Proof.
  intros K. pose proof (fs_kids l l' K) as KK. unfold f_sync_body, c_sync_body. do 5 (fs1; [apply fs_here|]). cbv zeta.
  fs1; [apply fs_slift, fs_get_or_none|]. fs1; [apply fs_slift, fs_dst_model|]. do 3 (fs1; [apply fs_here|]).
  fs1; [destruct (_ && _); [apply KK|apply fs_here]|]. fs1; [apply fs_here|]. destruct (snd _); [|apply fs_here].
  fs1; [apply fs_here|]. fs1; [apply fs_slift, fs_apply|]. match goal with |- fsim (if ?b then _ else _) _ => destruct b end; [apply fs_here|].
  fs1; [apply fs_here|]. destruct (_ || _); [apply KK|apply fs_here].
Qed.
Lemma fs_all ord env gs : (forall x, In x (children gs) -> forall p, fsim (f_sync_elem ord env x p) (c_sync_elem ord env x p)) ->
  Forall2 (fun k k' => forall p, fsim (k p) (k' p)) (ordered ord (f_sync_elem ord env) gs) (ordered ord (c_sync_elem ord env) gs).
Proof.
  intros H. rewrite (ordered_map ord (f_sync_elem ord env)), (ordered_map ord (c_sync_elem ord env)).
  assert (X : forall x, In x (ordered ord (fun e => e) gs) -> forall p, fsim (f_sync_elem ord env x p) (c_sync_elem ord env x p)) by (intros x I; apply H, (ordered_sub ord), I).
  clear H. induction (ordered ord (fun e => e) gs) as [|x l IH]; cbn [map]; constructor; [apply X; now left|]. apply IH. intros y I. apply X. now right.
Qed.
Lemma fs_elem ord env e : forall p, fsim (f_sync_elem ord env e p) (c_sync_elem ord env e p).
Proof.
  induction e as [e IH] using elem_ind'. intros p.
  assert (Y : f_sync_elem ord env e p = f_sync_body env e p (ordered ord (f_sync_elem ord env) (e_kids e))) by now destruct e.
  assert (Z : c_sync_elem ord env e p = c_sync_body env e p (ordered ord (c_sync_elem ord env) (e_kids e))) by now destruct e.
  rewrite Y, Z. apply fs_body, fs_all. intros x I. apply In_children in I as (t & g & n & G & I). exact (IH t g n x G I).
Qed.
Lemma fs_sync fuel h dst src dc flags cb given : fsim (f_sync_from fuel h dst src dc flags cb given) (c_sync_from fuel h dst src dc flags cb given).
Proof.
  unfold f_sync_from, c_sync_from. fs1; [apply fs_here|]. fs1.
  - destruct given as [d0|]; [destruct (diff_truthy _); [apply fs_here|]|]; apply fs_diff_from.
  - unfold f_run_sync, c_run_sync. fs1; [|apply fs_here]. intros w. apply faith_then; [|intros y; constructor|].
    + unfold f_perform_sync, c_perform_sync. apply fs_kids, fs_all. intros x _. apply fs_elem.
    + intros s x F. eexists. reflexivity.
Qed.
Lemma fs_fmap {A B} (f : A -> B) m c : fsim m c -> fsim (ffmap f m) (cfmap f c).
Proof. intros H. unfold ffmap, cfmap. fs. Qed.
#[local] Hint Resolve fs_diff_from fs_sync : fsims.
Lemma fs_call a c : fsim (risked a c) (issued a c).
Proof. destruct c; cbn [risked issued]; apply fs_fmap; fs. Qed.

(** ** Runs *)
Lemma times_many {T} (R : T -> T -> Prop) n s s' : times R n s s' -> many R s s'.
Proof. induction 1; econstructor; eauto. Qed.
Lemma risk_count {A} net (p : fprog A) : forall i d, i <= fst (fst (risk net i d p)).
Proof. induction p; intros i d; cbn [risk]; [cbn; lia|..]; (etransitivity; [|apply H]; lia). Qed.
(** whatever fails, the run is that without failures up to the first failure, and ends there *)
Lemma risk_faith {S A} net (p : fprog (S * result A)) q : faith p q -> sane net -> forall i d,
  let '(m, d', y) := risk net i d p in
  (served net i m /\ times cstep (m - i) (d, q) (d', Done y)) \/
  (exists n x, m = 1 + n /\ i <= n /\ served net i n /\ snd y = Err x /\
     ((net n = NotSent x /\ exists q1, times cstep (n - i) (d, q) (d', q1)) \/
      (net n = NoReply x /\ exists q1, times cstep (1 + n - i) (d, q) (d', q1)))).
Proof.
  intros H SN. induction H as [y|k f g H IH ST|k o f q H IH ST|k f g H IH ST|k f q H IH ST|k f g H IH ST]; intros i d; cbn [risk].
  { left. split; [intros j J; lia|]. replace (i - i) with 0 by lia. constructor. }
  all: destruct (net i) as [|x|x] eqn:EN; cbn [replied carried];
    [ match goal with |- context [risk ?nn (Datatypes.S ?ii) ?d' (?ff (Ok ?v))] =>
        first [specialize (IH v (Datatypes.S ii) d') | specialize (IH (Datatypes.S ii) d')];
        pose proof (risk_count nn (ff (Ok v)) (Datatypes.S ii) d') as CNT;
        destruct (risk nn (Datatypes.S ii) d' (ff (Ok v))) as [[m d2] y] end; cbn [fst] in CNT;
      destruct IH as [(SV & T)|(n & x & M & L & SV & Y & T)];
      [ left; split;
        [ intros j J; destruct (Nat.eq_dec j i) as [->|NJ]; [exact EN|apply SV; lia]
        | replace (m - i) with (Datatypes.S (m - Datatypes.S i)) by lia; econstructor; [constructor|exact T] ]
      | right; exists n, x; split; [exact M|]; split; [lia|]; split; [intros j J; destruct (Nat.eq_dec j i) as [->|NJ]; [exact EN|apply SV; lia]|]; split; [exact Y|];
        destruct T as [(E2 & q1 & T)|(E2 & q1 & T)]; [left|right]; (split; [exact E2|]); exists q1;
        [replace (n - i) with (Datatypes.S (n - Datatypes.S i)) by lia|replace (1 + n - i) with (Datatypes.S (1 + n - Datatypes.S i)) by lia]; (econstructor; [constructor|exact T]) ]
    | pose proof (SN i) as FX; rewrite EN in FX; destruct (ST x FX) as (s & E); rewrite E; cbn [risk]; right; exists i, x; split; [reflexivity|]; split; [lia|]; split; [intros j J; lia|]; split; [reflexivity|];
      left; split; [exact EN|]; replace (i - i) with 0 by lia; eexists; constructor
    | pose proof (SN i) as FX; rewrite EN in FX; destruct (ST x FX) as (s & E); rewrite E; cbn [risk]; right; exists i, x; split; [reflexivity|]; split; [lia|]; split; [intros j J; lia|]; split; [reflexivity|];
      right; split; [exact EN|]; replace (1 + i - i) with 1 by lia; eexists; (econstructor; [constructor|constructor]) ].
Qed.

(** ** Calls *)
Lemma call_fails net a c w d : w_redis w = [] -> sane net ->
  let '(m, d', (w', r)) := risk net 0 d (risked a c w) in
  (served net 0 m /\ (set_redis w' d', r) = ConcSpec.made a c (set_redis w d) /\ w_redis w' = []) \/
  (exists n x, m = 1 + n /\ served net 0 n /\ r = Err x /\
     ((net n = NotSent x /\ exists q, times cstep n (d, issued a c w) (d', q)) \/
      (net n = NoReply x /\ exists q, times cstep (1 + n) (d, issued a c w) (d', q)))).
Proof.
  intros E SN. pose proof (risk_faith net _ _ (fs_call a c w) SN 0 d) as H. destruct (risk net 0 d (risked a c w)) as [[m d'] [w' r]].
  destruct H as [(SV & T)|(n & x & M & _ & SV & Y & T)].
  - left. split; [exact SV|]. apply times_many, solo_runs in T. cbn [fst snd solo] in T. rewrite (sim_call a c w d E) in T. injection T as <- <- <-.
    rewrite redis_twice, redis_eta. split; [now rewrite <- surjective_pairing|reflexivity].
  - right. exists n, x. rewrite !Nat.sub_0_r in T. now repeat split.
Qed.
Lemma call_cut net a c w d : w_redis w = [] -> sane net ->
  let '(_, d', _) := risk net 0 d (risked a c w) in exists q, many cstep (d, issued a c w) (d', q).
Proof.
  intros E SN. pose proof (risk_faith net _ _ (fs_call a c w) SN 0 d) as H. destruct (risk net 0 d (risked a c w)) as [[m d'] y].
  destruct H as [(_ & T)|(n & x & _ & _ & _ & _ & [(_ & q & T)|(_ & q & T)])]; eexists; eapply times_many; exact T.
Qed.
(** add and update on a RedisStore leave the memory alone *)
Lemma risk_still net a c w d r ad i : nth_error (w_ads w) a = Some ad -> ad_store ad = SRedis i -> c = KAdd r \/ c = KUpdate r ->
  fst (snd (risk net 0 d (risked a c w))) = w.
Proof.
  intros E1 E2 [-> | ->]; cbn [risked]; unfold ffmap, f_add, f_update, fbind, fhere, hget, lift, get_adapter;
    (destruct (nth_error (w_heap w) r) as [o|]; [|reflexivity]); cbn [fthen fst snd]; (destruct (get_unique_id o) as [u|]; [|reflexivity]); cbn [fthen fst snd]; rewrite E1; cbn [fthen fst snd]; rewrite E2; unfold f_put, fget, fset; cbn [fthen risk fst snd].
  - destruct (replied (net 0) _) as [[e|]|e]; cbn [fthen risk fst snd]; [|destruct (replied (net 1) tt); reflexivity|reflexivity]. destruct (dump_eq e o); reflexivity.
  - destruct (replied (net 0) tt); reflexivity.
Qed.
