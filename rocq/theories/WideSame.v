(** * WideSame: with the user code of SyncerDefs the syncer of WideDefs is that of SyncerDefs. *)
From Verif Require Export WideDefs.
From Verif Require Import DiffFacts SyncMaster RunFacts.
From Coq Require Import Lia.

(** the diff has at most [n] levels *)
Fixpoint no_deeper (n : nat) (gs : dict (dict elem)) : Prop :=
  match n with
  | O => forall t g, In (t, g) gs -> g = []
  | S m => forall t g k x, In (t, g) gs -> In (k, x) g -> no_deeper m (e_kids x)
  end.

Definition same {A} (m : M sstate A) (wm : M wstate A) : Prop :=
  forall s, snd (wm s) = snd (m (ws_s s)) /\ ws_s (fst (wm s)) = fst (m (ws_s s)).
Lemma same_bind {A B} (m : M sstate A) wm (k : A -> M sstate B) wk : same m wm -> (forall a, same (k a) (wk a)) -> same (bind m k) (bind wm wk).
Proof.
  intros H K s. unfold bind. destruct (H s) as (R & E). destruct (wm s) as [s1 r1], (m (ws_s s)) as [s2 r2]. cbn in *. subst. destruct r2 as [a|x]; [|now split].
  apply K.
Qed.
Lemma same_lift {A} (m : M sstate A) : same m (ulift m).
Proof. intros s. now split. Qed.
Lemma same_ret {A} (a : A) : same (ret a) (ret a).
Proof. intros s. now split. Qed.
Lemma same_raise {A} x : same (@raise sstate A x) (raise x).
Proof. intros s. now split. Qed.
Lemma same_catch {A} (m : M sstate A) wm p h wh : same m wm -> (forall x, same (h x) (wh x)) -> same (try_catch m p h) (try_catch wm p wh).
Proof.
  intros H K s. unfold try_catch. destruct (H s) as (R & E). destruct (wm s) as [s1 r1], (m (ws_s s)) as [s2 r2]. cbn in *. subst. destruct r2 as [a|x]; [now split|].
  destruct (p x); [apply K|now split].
Qed.
Lemma same_user {A} (U : user) c (m : M world (option ref)) (k : option ref -> M sstate A) wk : u_code U c = m -> (forall a, same (k a) (wk a)) ->
  same (bind (slift m) k) (bind (call_user U c) wk).
Proof. intros <- K. apply same_bind; [|exact K]. intros s. now split. Qed.
Lemma same_kids (l : list elem) (f : elem -> option ref -> M sstate bool) wf : (forall x p, In x l -> same (f x p) (wf x p)) ->
  forall p b, same (run_kids (map f l) p b) (wide_kids (map wf l) p b).
Proof.
  induction l as [|x l IH]; intros H p b; cbn [map run_kids wide_kids]; [apply same_ret|].
  apply same_bind; [apply H; now left|]. intros c. apply IH. intros y q I. apply H. now right.
Qed.

Section Same.
  Variables (src dst : aid) (flags : N) (total fuel : nat) (cb : bool) (h : hooks).
  Notation env := (mkSEnv src dst flags total cb h fuel).
  Notation wenv := (mkSEnv src dst flags total false default_hooks fuel).
  Notation U := (user_of src dst h cb).
  Lemma same_try dm ids attrs : same (sync_model_try env dm ids attrs) (wide_try U dm ids attrs).
  Proof.
    unfold sync_model_try, wide_try. apply same_bind; [apply same_lift|]. intros s.
    apply same_bind; [|intros [r|]; [apply same_bind; [apply same_lift|intros; apply same_ret]|apply same_ret]].
    destruct (ss_action s) as [[]|]; try apply same_raise.
    - destruct dm; [apply same_raise|]. destruct (ss_class s); [|apply same_raise]. intros st. now split.
    - destruct dm; [|apply same_raise]. intros st. now split.
    - destruct dm; [|apply same_raise]. intros st. now split.
  Qed.
  Lemma same_model dm ids attrs : same (sync_model env dm ids attrs) (wide_model wenv U dm ids attrs).
  Proof.
    unfold sync_model, wide_model. apply same_bind; [apply same_lift|]. intros s. destruct (ss_action s) as [a|].
    - apply same_bind.
      + apply same_catch; [apply same_bind; [apply same_try|intros; apply same_ret]|]. intros x. apply same_bind; [apply same_lift|]. intros _.
        change (sv_flags wenv) with (sv_flags env). destruct (has_flag (sv_flags env) SF_CONTINUE_ON_FAILURE); [apply same_ret|apply same_raise].
      + intros [[m [st msg]]|]; [|apply same_ret]. apply same_bind; [apply same_lift|intros; apply same_ret].
    - apply same_bind; [apply same_lift|intros; apply same_ret].
  Qed.
  Lemma same_incr : same (incr_elements_processed env) (wide_incr wenv U).
  Proof.
    intros s. unfold incr_elements_processed, wide_incr, bind, ulift, modify, get_state. cbn. destruct cb; cbn; now split.
  Qed.
  Lemma bind_assoc {X A B C} (m : M X A) (f : A -> M X B) (g : B -> M X C) s : bind (bind m f) g s = bind m (fun a => bind (f a) g) s.
  Proof. unfold bind. destruct (m s) as [s' [a|x]]; reflexivity. Qed.
  Lemma bind_get {X B} (k : X -> M X B) s : bind get_state k s = k s s.
  Proof. reflexivity. Qed.
  Lemma bind_ok {X A B} (m : M X A) (k : A -> M X B) s s' a : m s = (s', Ok a) -> bind m k s = k a s'.
  Proof. intros E. unfold bind. now rewrite E. Qed.
  Lemma bind_err {X A B} (m : M X A) (k : A -> M X B) s s' x : m s = (s', Err x) -> bind m k s = (s', Err x).
  Proof. intros E. unfold bind. now rewrite E. Qed.
  Lemma bind_ext {X A B} (m : M X A) (f g : A -> M X B) s : (forall a t, f a t = g a t) -> bind m f s = bind m g s.
  Proof. intros E. unfold bind. destruct (m s) as [s' [a|x]]; [apply E|reflexivity]. Qed.
  Lemma same_ext {A} (m m' : M sstate A) wm : (forall s, m s = m' s) -> same m wm -> same m' wm.
  Proof. intros E H s. rewrite <- E. apply H. Qed.
  Lemma same_body e p kids wkids : (forall q b, same (run_kids kids q b) (wide_kids wkids q b)) -> same (sync_body env e p kids) (wide_body wenv U e p wkids).
  Proof.
    intros K.
    apply (same_ext (bind (wide_start wenv e) (fun st =>
      let dst_model := fst st in let natural := fst (snd st) in let skip_children := snd (snd st) in
      s <- get_state ;;
      (if natural && is_delete (ss_action s) && negb skip_children then run_kids kids dst_model false else ret false) ;;;
      cm <- sync_model env dst_model (e_keys e) (match ad_plus (e_attrs_diffs e) with Some p => p | None => [] end) ;;
      match snd cm with
      | None => slog LWarning None "No object resulted from sync, will not process child objects." ;;; ret (fst cm)
      | Some r =>
          s <- get_state ;;
          stop <- slift (apply_to_store env (ss_action s) p r skip_children) ;;
          if (stop : bool) then ret (fst cm)
          else incr_elements_processed env ;;;
            s <- get_state ;;
            if negb natural || negb (is_delete (ss_action s)) then run_kids kids (Some r) (fst cm) else ret (fst cm)
      end))).
    { intros s. unfold sync_body, wide_start. change (sv_dst wenv) with (sv_dst env). change (sv_src wenv) with (sv_src env). change (get_dst_model wenv) with (get_dst_model env).
      do 9 (rewrite bind_assoc; apply bind_ext; clear s; intros ? s).
      match goal with |- bind (ret ?a) ?k ?s = _ => change (bind (ret a) k s) with (k a s) end. cbv beta zeta. cbn [fst snd]. apply bind_ext. clear s. intros s1 s. apply bind_ext. clear s. intros ch s. apply bind_ext. clear s. intros [ch' [r|]] s; [|reflexivity]. cbn [fst snd].
      rewrite !bind_get.
      assert (AC : ss_action (fst (slift (apply_to_store env (ss_action s) p r a7) s)) = ss_action s) by reflexivity. revert AC.
      destruct (slift (apply_to_store env (ss_action s) p r a7) s) as [s2 [[]|x]] eqn:E; cbn [fst]; intros AC.
      - now rewrite !(bind_ok _ _ _ _ _ E).
      - rewrite !(bind_ok _ _ _ _ _ E). unfold bind. cbn [incr_elements_processed get_state ss_action]. now rewrite AC.
      - now rewrite !(bind_err _ _ _ _ _ E). }
    unfold wide_body. apply same_bind; [apply same_lift|]. intros [dm [nat skip]]. cbn [fst snd]. apply same_bind; [apply same_lift|]. intros s.
    apply same_bind; [destruct (nat && is_delete (ss_action s) && negb skip)%bool; [apply K|apply same_ret]|]. intros _.
    apply same_bind; [apply same_model|]. intros [ch [r|]]; cbn [fst snd]; [|apply same_bind; [apply same_lift|intros; apply same_ret]].
    apply same_bind; [apply same_lift|]. intros s1. apply same_bind; [apply same_lift|]. intros [|]; [apply same_ret|]. apply same_bind; [apply same_incr|]. intros _. apply same_bind; [apply same_lift|]. intros s2.
    destruct (negb nat || negb (is_delete (ss_action s2)))%bool; [apply K|apply same_ret].
  Qed.
  Lemma same_elem ord e : forall limit p, (match limit with O => False | S l => no_deeper l (e_kids e) end) -> same (sync_elem ord env e p) (wide_elem ord wenv U limit e p).
  Proof.
    induction e as [e IH] using elem_ind'. intros [|l] p ND; [destruct ND|]. rewrite sync_elem_eq. assert (E : wide_elem ord wenv U (S l) e p = wide_body wenv U e p (ordered ord (wide_elem ord wenv U l) (e_kids e))) by now destruct e. rewrite E. clear E.
    apply same_body. rewrite (ordered_map ord (sync_elem ord env)), (ordered_map ord (wide_elem ord wenv U l)). apply same_kids. intros x q I. apply ordered_sub in I. apply In_children in I as (t & g & n & I1 & I2). apply (IH t g n x I1 I2).
    destruct l as [|l]; [apply ND in I1; subst g; destruct I2|exact (ND t g n x I1 I2)].
  Qed.
End Same.
