(** * CostNat: counting the commands of a synchronisation that deletes in natural order. *)
From Verif Require Export CostDiff CallSpec WholeFacts.

Section Nat.
  Variables (env : senv).
  Notation dst := (sv_dst env).
  Notation J := (fun s : sstate => to_redis dst (ss_w s)).
  Notation zero := (fun _ : obj => 0).
  Definition unskipped (o : obj) : Prop := N.testbit (o_flags o) 1 = false.
  (** at a point where the current action is [a] *)
  Definition acting (a : option action) (s : sstate) : Prop := to_redis dst (ss_w s) /\ ss_action s = a.
  Definition leads {A} (I I' : sstate -> Prop) (c : nat) (m : SM sstate A) : Prop :=
    forall s n, I s -> pays unskipped zero 0 (fun sx b => match snd sx with Ok _ => I' (fst sx) /\ n <= b | Err _ => True end) (c + n) (m s).
  Lemma leads_at {A} I I' c (m : SM sstate A) s n : leads I I' c m -> I s -> c <= n -> pays unskipped zero 0 (fun sx b => match snd sx with Ok _ => I' (fst sx) /\ n - c <= b | Err _ => True end) n (m s).
  Proof. intros H IS L. pose proof (H s (n - c) IS) as X. now replace (c + (n - c)) with n in X by lia. Qed.
  Lemma leads_more {A} I I' c c' (m : SM sstate A) : leads I I' c m -> c <= c' -> leads I I' c' m.
  Proof. intros H L s n IS. eapply pays_post; [apply (leads_at I I' c m s (c' + n) H IS); lia|]. intros [s' [x|e]] b; cbn [fst snd]; [|tauto]. intros [? ?]. split; [assumption|lia]. Qed.
  Lemma leads_to {A} (I I' K K' : sstate -> Prop) c (m : SM sstate A) : leads I I' c m -> (forall s, K s -> I s) -> (forall s, I' s -> K' s) -> leads K K' c m.
  Proof. intros H A1 A2 s n IS. eapply pays_post; [exact (H s n (A1 s IS))|]. intros [s' [x|e]] b; cbn [fst snd]; [|tauto]. intros [? ?]. split; [now apply A2|assumption]. Qed.
  Lemma leads_bind {A B} I I1 I' c c' (m : SM sstate A) (k : A -> SM sstate B) : leads I I1 c m -> (forall x, leads I1 I' c' (k x)) -> leads I I' (c + c') (cbind m k).
  Proof.
    intros H K s n IS. replace (c + c' + n) with (c + (c' + n)) by lia. eapply pays_then; [now apply H|]. intros [s' [x|e]] b L; cbn [fst snd] in *; [|now constructor]. destruct L as [I2 L].
    eapply pays_post; [apply (leads_at I1 I' c' (k x) s' b (K x) I2); lia|]. intros [s2 [y|e]] b2; cbn [fst snd]; [|tauto]. intros [? ?]. split; [assumption|lia].
  Qed.
  Lemma leads_here {A} (I I' : sstate -> Prop) (m : M sstate A) : (forall s, I s -> I' (fst (m s))) -> leads I I' 0 (here m).
  Proof. intros H s n IS. unfold here. constructor. specialize (H s IS). destruct (m s) as [s' [x|e]]; cbn [fst snd] in *; [|exact Logic.I]. split; [exact H|lia]. Qed.
  Lemma leads_get {A} (I I' : sstate -> Prop) c (k : sstate -> SM sstate A) : (forall s0, I s0 -> leads (fun s => s = s0) I' c (k s0)) -> leads I I' c (cbind (here get_state) k).
  Proof. intros H s n IS. unfold cbind. cbn [here cthen get_state fst snd]. exact (H s IS s n eq_refl). Qed.
  Lemma leads_spend {A} c (m : CM A) a : spend unskipped zero 0 (to_redis dst) c m -> leads (acting a) (acting a) c (cslift m).
  Proof.
    intros H s n [R E]. unfold cslift. eapply pays_then; [exact (H (ss_w s) n R)|]. intros [w x] b [R1 L]. constructor. cbn [fst snd] in *. destruct x; [|exact Logic.I]. split; [|exact L]. now split.
  Qed.

  (** parts without commands keep the adapters and the action *)
  Definition kb {A} (m : M sstate A) : Prop := forall s, w_ads (ss_w (fst (m s))) = w_ads (ss_w s) /\ ss_action (fst (m s)) = ss_action s.
  Lemma kb_bind {A B} (m : M sstate A) (k : A -> M sstate B) : kb m -> (forall x, kb (k x)) -> kb (bind m k).
  Proof. intros H K s. unfold bind. specialize (H s). destruct (m s) as [s' [x|e]]; cbn [fst] in *; [|exact H]. destruct (K x s') as [-> ->]. exact H. Qed.
  Lemma kb_try {A} (m : M sstate A) p h : kb m -> (forall e, kb (h e)) -> kb (try_catch m p h).
  Proof. intros H K s. unfold try_catch. specialize (H s). destruct (m s) as [s' [x|e]]; cbn [fst] in *; [exact H|]. destruct (p e); [|exact H]. destruct (K e s') as [-> ->]. exact H. Qed.
  Lemma kb_slift {A} (m : M world A) : kaw m -> kb (slift m).
  Proof. intros H s. unfold slift. specialize (H (ss_w s)). destruct (m (ss_w s)) as [w' x]. now split. Qed.
  Lemma kb_slog l st msg : kb (slog l st msg).
  Proof. apply kb_bind; [intros s; now split|]. intros s. apply kb_slift. intros w. reflexivity. Qed.
  Lemma kb_status a st msg : kb (log_sync_status env a st msg).
  Proof. unfold log_sync_status. destruct a; [destruct st; apply kb_slog|]. destruct (has_flag _ _); [apply kb_slog|intros s; now split]. Qed.
  Lemma kb_model dm ks attrs : kb (sync_model env dm ks attrs).
  Proof.
    assert (R : forall {A} (x : A), kb (ret x)) by (intros A x s; now split). assert (RA : forall {A} e, kb (@raise sstate A e)) by (intros A e s; now split).
    assert (KT : kb (sync_model_try env dm ks attrs)).
    { apply kb_bind; [intros s; now split|]. intros s. apply kb_bind.
      - destruct (ss_action s) as [[| |]|], dm; try apply RA; try (apply kb_slift; first [now apply (kaw_hooks env (mkCls "" [] [] [] [] [] [] 0) [])]).
        destruct (ss_class s); [|apply RA]. apply kb_slift. exact (proj1 (kaw_hooks env _ _ _ 0)).
      - intros [r|]; [|apply R]. apply kb_bind; [apply kb_slift, kaw_hget|]. intros o. apply R. }
    apply kb_bind; [intros s; now split|]. intros s. destruct (ss_action s) as [a|].
    - apply kb_bind.
      + apply kb_try; [apply kb_bind; [exact KT|intros x; apply R]|]. intros e. apply kb_bind; [apply kb_status|]. intros _. destruct (has_flag _ _); [apply R|apply RA].
      + intros [[m [st msg]]|]; [|apply R]. apply kb_bind; [apply kb_status|]. intros _. apply R.
    - apply kb_bind; [apply kb_status|]. intros _. apply R.
  Qed.
  Lemma leads_kb {A} (m : M sstate A) a : kb m -> leads (acting a) (acting a) 0 (here m).
  Proof. intros H. apply leads_here. intros s [R E]. destruct (H s) as [W AC]. split; [exact (to_redis_ads _ _ _ W R)|congruence]. Qed.

  (** ** Elements *)
  Notation deletes e := (e_action e = Some ADelete).
  (** where an element leaves the syncer *)
  Definition ends (e : elem) (s : sstate) : Prop := to_redis dst (ss_w s) /\ (deletes e -> ss_action s = Some ADelete).
  Lemma n_kids (I : sstate -> Prop) (l : list (option ref -> SM sstate bool)) cs : Forall2 (fun k c => forall p, leads I I c (k p)) l cs -> forall p b, leads I I (list_sum cs) (c_run_kids l p b).
  Proof.
    induction 1 as [|k c l cs K _ IH]; intros p b; cbn [c_run_kids]; [now apply leads_here|]. change (list_sum (c :: cs)) with (c + list_sum cs). eapply leads_bind; [apply K|]. intros x. apply IH.
  Qed.
  Lemma un_flags o o' : o_flags o = o_flags o' -> unskipped o -> unskipped o'.
  Proof. unfold unskipped. now intros ->. Qed.
  Lemma n_body e p l cs : Forall2 (fun k c => forall p, leads J J c (k p)) l cs ->
    (deletes e -> Forall2 (fun k c => forall p, leads (acting (Some ADelete)) (acting (Some ADelete)) c (k p)) l cs) -> leads J (ends e) (5 + list_sum cs) (c_sync_body env e p l).
  Proof.
    intros F FD. pose proof (n_kids _ l cs F) as KK. pose proof (fun D => n_kids _ l cs (FD D)) as KD. unfold c_sync_body. set (N := list_sum cs) in *.
    apply (leads_bind J J _ 0 (5 + N)); [apply leads_here; intros s R; unfold slift, get_adapter; now destruct (nth_error _ _)|]. intros ad.
    apply (leads_bind J J _ 0 (5 + N)); [now apply leads_here|]. intros c.
    apply (leads_bind J J _ 0 (5 + N)); [now apply leads_here|]. intros _.
    apply (leads_bind J J _ 0 (5 + N)); [now apply leads_here|]. intros u.
    apply (leads_bind J (acting (e_action e)) _ 0 (5 + N)); [apply leads_here; intros s R; now split|]. intros _. cbv zeta.
    apply (leads_bind _ (acting (e_action e)) _ 1 (4 + N)); [apply leads_spend, k_source|]. intros _.
    intros s n [R AC]. unfold cbind at 1. replace (4 + N + n) with (1 + (3 + N + n)) by lia. unfold cslift at 1.
    eapply pays_then; [eapply pays_then; [exact (k_model env unskipped c (e_keys e) (ss_w s) (3 + N + n) un_flags R)|]|].
    { intros [w1 x] b H. constructor. exact (conj H AC : (fun (sx : sstate * result (option ref)) b => (to_redis dst (ss_w (fst sx)) /\ 3 + N + n <= b /\ forall r, snd sx = Ok (Some r) -> exists o, nth_error (w_heap (ss_w (fst sx))) r = Some o /\ unskipped o) /\ ss_action (fst sx) = e_action e) (set_ss_w s w1, x) b). }
    intros [s1 [dm|ex]] b ((R1 & L & H) & AC1); cbn [fst snd] in *; [|now constructor].
    assert (MF : exists nat, slift (model_flag dm MF_NATURAL_DELETION_ORDER) s1 = (s1, Ok nat) /\ slift (model_flag dm MF_SKIP_CHILDREN_ON_DELETE) s1 = (s1, Ok false)).
    { unfold slift, model_flag. destruct dm as [r|]; [|exists false; destruct s1; now split]. destruct (H r eq_refl) as (o & E & P). unfold bind, hget. rewrite E. cbn [ret].
      exists (has_flag (o_flags o) MF_NATURAL_DELETION_ORDER). split; [now destruct s1|]. change MF_SKIP_CHILDREN_ON_DELETE with (2 ^ 1)%N. rewrite has_flag_pow2, P. now destruct s1. }
    destruct MF as (nat & MN & MS).
    unfold cbind at 1. cbn [here cthen]. rewrite MN. cbn [fst snd]. unfold cbind at 1. cbn [here cthen]. rewrite MS. cbn [fst snd negb].
    set (attrs := match ad_plus (e_attrs_diffs e) with Some p => p | None => [] end).
    (* what follows the first visit of the children; [M] is left for the second *)
    assert (G : forall act M, (forall r ch, leads (acting act) (ends e) M (if negb nat || negb (is_delete act) then c_run_kids l (Some r) ch else here (ret ch))) ->
      (deletes e -> act = Some ADelete) ->
      leads (acting act) (ends e) (3 + M) (cbind (here (sync_model env dm (e_keys e) attrs)) (fun cm =>
      match snd cm with
      | None => here (slog LWarning None "No object resulted from sync, will not process child objects." ;;; ret (fst cm))
      | Some r => cbind (here get_state) (fun s => cbind (cslift (c_apply_to_store env (ss_action s) p r false)) (fun stop : bool =>
          if stop then here (ret (fst cm)) else cbind (here (incr_elements_processed env)) (fun _ => if negb nat || negb (is_delete (ss_action s)) then c_run_kids l (Some r) (fst cm) else here (ret (fst cm)))))
      end))).
    { intros act M HM AD. assert (WK : forall s, acting act s -> ends e s) by (intros s0 [A0 B0]; split; [exact A0|]; intros D; now rewrite B0, AD).
      apply (leads_bind _ (acting act) _ 0 (3 + M)); [apply leads_kb, kb_model|]. intros [ch [r|]]; cbn [fst snd].
      - apply leads_get. intros s0 [R0 A0]. rewrite A0. eapply (leads_to (acting act) (ends e)); [|intros s2 ->; now split|trivial].
        apply (leads_bind _ (acting act) _ 3 M); [apply leads_spend, k_apply|]. intros [].
        + apply (leads_more _ _ 0); [|lia]. now apply leads_here.
        + apply (leads_bind _ (acting act) _ 0 M); [apply leads_kb; intros s4; cbn; now destruct (sv_cb env)|]. intros _. apply HM.
      - apply (leads_more _ _ 0); [|lia]. apply (leads_to (acting act) (acting act)); [|trivial|exact WK]. apply leads_kb, kb_bind; [apply kb_slog|intros _ s4; now split]. }
    assert (X : leads (acting (e_action e)) (ends e) (3 + N) (cbind (here get_state) (fun s : sstate => cbind (if nat && is_delete (ss_action s) && true then c_run_kids l dm false else here (ret false)) (fun _ : bool =>
      cbind (here (sync_model env dm (e_keys e) attrs)) (fun cm =>
      match snd cm with
      | None => here (slog LWarning None "No object resulted from sync, will not process child objects." ;;; ret (fst cm))
      | Some r => cbind (here get_state) (fun s => cbind (cslift (c_apply_to_store env (ss_action s) p r false)) (fun stop : bool =>
          if stop then here (ret (fst cm)) else cbind (here (incr_elements_processed env)) (fun _ => if negb nat || negb (is_delete (ss_action s)) then c_run_kids l (Some r) (fst cm) else here (ret (fst cm)))))
      end))))).
    { apply leads_get. intros s0 [R0 A0]. rewrite A0, andb_true_r. eapply (leads_to (acting (e_action e)) (ends e)); [|intros s2 ->; now split|trivial].
      assert (TO : forall r ch, e_action e <> Some ADelete -> leads (acting (e_action e)) (ends e) N (c_run_kids l (Some r) ch)).
      { intros r ch ND. apply (leads_to J J); [apply KK|intros s2 [A2 _]; exact A2|]. intros s2 R2. split; [exact R2|]. intros D. contradiction. }
      destruct nat; cbn [andb negb orb] in *.
      - destruct (is_delete (e_action e)) eqn:D; cbn [negb] in *.
        + assert (DD : e_action e = Some ADelete) by (destruct (e_action e) as [[]|]; try discriminate D; reflexivity). rewrite DD. replace (3 + N) with (N + 3) by lia.
          apply (leads_bind _ (acting (Some ADelete))); [now apply KD|]. intros _. apply (G (Some ADelete) 0); [|trivial].
          intros r ch. cbn [is_delete negb]. apply (leads_to (acting (Some ADelete)) (acting (Some ADelete))); [now apply leads_here|trivial|]. intros s2 [A2 B2]. split; [exact A2|now intros _].
        + apply (leads_bind _ (acting (e_action e)) _ 0 (3 + N)); [now apply leads_here|]. intros _. apply (G (e_action e) N); [|trivial].
          intros r ch. rewrite D. cbn [negb]. apply TO. intros DD. rewrite DD in D. discriminate D.
      - apply (leads_bind _ (acting (e_action e)) _ 0 (3 + N)); [now apply leads_here|]. intros _. apply (G (e_action e) N); [|trivial].
        intros r ch. assert (DC : {e_action e = Some ADelete} + {e_action e <> Some ADelete}) by (decide equality; decide equality). destruct DC as [DD|ND]; [|now apply TO].
        rewrite DD. apply (leads_to (acting (Some ADelete)) (acting (Some ADelete))); [now apply KD|trivial|]. intros s2 [A2 B2]. split; [exact A2|now intros _]. }
    eapply pays_post; [exact (leads_at _ _ _ _ s1 b X (conj R1 AC1) ltac:(lia))|]. intros [s2 [y|e2]] m; cbn [fst snd]; [|tauto]. intros [? ?]. split; [assumption|lia].
  Qed.
  (** ** Diffs *)
  Section Whole.
    Variables (gs : dict (dict elem)) (ord : order_fn).
    Hypothesis DW : deletes_whole gs.
    Lemma occ_kid e x : occurs e gs -> In x (children (e_kids e)) -> occurs x gs.
    Proof.
      intros O I. apply In_children in I as (t & g & n & G & I). clear DW. induction O as [gs t' g' n' G' I'|gs t' g' n' p G' I' O IH]; eapply occ_below; eauto. eapply occ_here; eauto.
    Qed.
    Lemma n_all (I : sstate -> Prop) gs' : (forall x, In x (children gs') -> forall p, leads I I (5 * elem_len ord x) (c_sync_elem ord env x p)) ->
      Forall2 (fun k c => forall p, leads I I c (k p)) (ordered ord (c_sync_elem ord env) gs') (map (fun x => 5 * elem_len ord x) (ordered ord (fun e => e) gs')).
    Proof.
      intros H. rewrite (ordered_map ord (c_sync_elem ord env)).
      assert (X : forall x, In x (ordered ord (fun e => e) gs') -> forall p, leads I I (5 * elem_len ord x) (c_sync_elem ord env x p)) by (intros x J0; apply H, (ordered_sub ord), J0).
      clear H. induction (ordered ord (fun e => e) gs') as [|x l IH]; cbn [map]; constructor; [apply X; now left|]. apply IH. intros y J0. apply X. now right.
    Qed.
    Lemma n_elem e : occurs e gs -> forall p, leads J (ends e) (5 * elem_len ord e) (c_sync_elem ord env e p).
    Proof.
      induction e as [e IH] using elem_ind'. intros O p.
      assert (Z : c_sync_elem ord env e p = c_sync_body env e p (ordered ord (c_sync_elem ord env) (e_kids e))) by now destruct e.
      assert (LN : elem_len ord e = 1 + list_sum (ordered ord (elem_len ord) (e_kids e))) by now destruct e.
      rewrite Z, LN, ordered_map. replace (5 * (1 + list_sum (map (elem_len ord) (ordered ord (fun e0 => e0) (e_kids e))))) with (5 + list_sum (map (fun x => 5 * elem_len ord x) (ordered ord (fun e0 => e0) (e_kids e)))) by (rewrite sum5; lia).
      assert (K : forall x, In x (children (e_kids e)) -> forall p, leads J (ends x) (5 * elem_len ord x) (c_sync_elem ord env x p)).
      { intros x I. pose proof (occ_kid e x O I) as OX. apply In_children in I as (t & g & n & G & I). exact (IH t g n x G I OX). }
      apply n_body.
      - apply n_all. intros x I q. apply (leads_to J (ends x)); [now apply K|trivial|]. now intros s [R _].
      - intros D. apply n_all. intros x I q. apply (leads_to J (ends x)); [now apply K|now intros s [R _]|]. intros s [R A]. split; [exact R|]. apply A. now apply (DW e x).
    Qed.
  End Whole.
  Lemma n_perform d : deletes_whole (d_groups d) -> leads J J (5 * diff_len d) (c_perform_sync env d).
  Proof.
    intros DW. unfold c_perform_sync, diff_len, groups_len. rewrite (ordered_map _ (elem_len _)), <- sum5. apply n_kids, n_all. intros x I p. apply (leads_to J (ends x)); [|trivial|now intros s [R _]].
    apply (n_elem (d_groups d)); [exact DW|]. apply In_children in I as (t & g & n & G & I). eapply occ_here; eauto.
  Qed.
End Nat.
Lemma run_nat src dst flags cb h fuel d w l q : to_redis dst w -> deletes_whole (d_groups d) -> (forall k o, In (WGet k (Some o)) l -> unskipped o) ->
  talk (c_run_sync (mkSEnv src dst flags (diff_len d) cb h fuel) d w) l q -> length l <= 5 * diff_len d.
Proof.
  intros R DW RP T. assert (H : pays unskipped (fun _ => 0) 0 (fun _ _ => True) (5 * diff_len d) (c_run_sync (mkSEnv src dst flags (diff_len d) cb h fuel) d w)).
  { unfold c_run_sync, cbind at 1. eapply pays_then with (post := fun _ _ => True); [|intros [w' [x|x]] k _; now constructor]. eapply pays_then with (post := fun _ _ => True); [|intros x k _; now constructor].
    pose proof (n_perform (mkSEnv src dst flags (diff_len d) cb h fuel) d DW (mkSS w 0 None None None) 0 R) as X. rewrite Nat.add_0_r in X. eapply pays_post; [exact X|trivial]. }
  apply (pays_talk _ _ _ _ _ _ _ T) in H; [|exact RP]. rewrite pay_none in H. lia.
Qed.

(** ** In a computed diff, everything below a deletion is a deletion, whatever the server replies (WholeFacts.v for programs) *)
Inductive all_ends {A} (P : A -> Prop) : cprog A -> Prop :=
| ae_done x : P x -> all_ends P (Done x)
| ae_get k f : (forall x, all_ends P (f x)) -> all_ends P (CGet k f)
| ae_set k o p : all_ends P p -> all_ends P (CSet k o p)
| ae_exists k f : (forall b, all_ends P (f b)) -> all_ends P (CExists k f)
| ae_delete k p : all_ends P p -> all_ends P (CDelete k p)
| ae_scan k f : (forall l, all_ends P (f l)) -> all_ends P (CScan k f).
Lemma all_ends_then {A B} (P : A -> Prop) (Q : B -> Prop) p g : all_ends P p -> (forall x, P x -> all_ends Q (g x)) -> all_ends Q (cthen p g).
Proof. intros H K. induction H; cbn [cthen]; [now apply K|constructor..]; auto. Qed.
Lemma all_ends_talk {A} (P : A -> Prop) p l x : all_ends P p -> talk p l (Done x) -> P x.
Proof. intros H T. remember (Done x) as q eqn:E. induction T; subst; inversion H; subst; auto. Qed.
Lemma all_ends_any {A} (p : cprog A) : all_ends (fun _ => True) p.
Proof. induction p; constructor; auto. Qed.
Lemma all_ends_weak {A} (P Q : A -> Prop) p : all_ends P p -> (forall x, P x -> Q x) -> all_ends Q p.
Proof. intros H K. induction H; constructor; auto. Qed.
Section CYields.
  Context {St : Type}.
  Definition fine_end {A} (P : A -> Prop) (sx : St * result A) : Prop := match snd sx with Ok x => P x | Err _ => True end.
  Definition cyields {A} (m : SM St A) (P : A -> Prop) : Prop := forall s, all_ends (fine_end P) (m s).
  Lemma cy_bind {A B} (m : SM St A) (k : A -> SM St B) P Q : cyields m P -> (forall a, P a -> cyields (k a) Q) -> cyields (cbind m k) Q.
  Proof. intros H K s. eapply all_ends_then; [apply H|]. intros [s' [x|e]] F; cbn [fst snd]; [now apply K|now constructor]. Qed.
  Lemma cy_weak {A} (m : SM St A) (P Q : A -> Prop) : cyields m P -> (forall a, P a -> Q a) -> cyields m Q.
  Proof. intros H K s. eapply all_ends_weak; [apply H|]. intros [s' [x|e]]; unfold fine_end; cbn; auto. Qed.
  Lemma cy_any {A} (m : SM St A) : cyields m (fun _ => True).
  Proof. intros s. eapply all_ends_weak; [apply all_ends_any|]. intros [s' [x|e]] _; exact I. Qed.
  Lemma cy_ret {A} (a : A) (P : A -> Prop) : P a -> cyields (here (ret a)) P.
  Proof. intros H s. now constructor. Qed.
  Lemma cy_raise {A} e (P : A -> Prop) : cyields (here (@raise St A e)) P.
  Proof. intros s. constructor. exact I. Qed.
  Lemma cy_lift {A} (r : result A) : cyields (here (lift r)) (fun a => r = Ok a).
  Proof. intros s. constructor. unfold fine_end, lift. cbn. now destruct r. Qed.
End CYields.
Section CStep.
  Variables (env : denv) (rec : list obj -> list obj -> SM dstate (list elem)).
  Hypothesis REC : forall ss dd, cyields (rec ss dd) (both_ok ss).

  Lemma c_child_types_whole so do mapping : forall gs, all_in whole (children gs) -> (so = None -> all_in gone (children gs)) ->
    cyields (c_diff_child_types env rec so do mapping gs) (fun gs' => all_in whole (children gs') /\ (so = None -> all_in gone (children gs'))).
  Proof.
    induction mapping as [|[t f] mp IH]; intros gs H1 H2; cbn [c_diff_child_types]; [apply cy_ret; auto|].
    apply cy_bind with (P := fun ss => so = None -> ss = []).
    { destruct so; [eapply cy_weak; [apply cy_any|]; intros a _ E; discriminate E|]. now apply cy_ret. }
    intros ss HS. eapply cy_bind; [apply cy_any|]. intros dd _. eapply cy_bind; [apply REC|]. intros es [E1 E2].
    eapply cy_bind; [apply cy_lift|]. intros gs' E. apply IH.
    - exact (add_elems_all _ _ _ _ E E1 H1).
    - intros N. exact (add_elems_all _ _ _ _ E (E2 (HS N)) (H2 N)).
  Qed.
  Lemma c_pair_whole so do : cyields (c_diff_object_pair env rec so do)
    (fun r => match r with Some e => all_in whole [e] /\ (so = None -> all_in gone [e]) | None => True end).
  Proof.
    unfold c_diff_object_pair. destruct (match so with Some s => Some s | None => do end) as [o|] eqn:EO; [|apply cy_raise].
    eapply cy_bind; [apply cy_any|]. intros _ _. eapply cy_bind; [apply cy_any|]. intros name _.
    destruct (skip_pair _ _ _); (eapply cy_bind; [apply cy_any|]; intros _ _); [now apply cy_ret|].
    eapply cy_bind; [apply cy_any|]. intros mapping _. eapply cy_bind; [apply c_child_types_whole; intros; apply all_nil|].
    intros gs [H1 H2]. apply cy_ret. split.
    - intros e x [<-|[]] J. destruct (elem_all_kids _ _ J) as [->|(k & K1 & K2)].
      + intros N k K. cbn [e_src e_kids] in *. destruct so; [discriminate|]. apply (H2 eq_refl k k K). apply In_elem_all_iff. now left.
      + eapply H1; eauto.
    - intros -> e x [<-|[]] J. destruct (elem_all_kids _ _ J) as [->|(k & K1 & K2)].
      + split; [reflexivity|]. cbn [e_dst]. destruct do; discriminate.
      + eapply H2; eauto.
  Qed.
  Lemma c_pairs_whole l : cyields (c_diff_pairs env rec l)
    (fun es => all_in whole es /\ ((forall u so do, In (u, (so, do)) l -> so = None) -> all_in gone es)).
  Proof.
    induction l as [|[u [so do]] l IH]; cbn [c_diff_pairs]; [apply cy_ret; split; intros; apply all_nil|].
    eapply cy_bind; [apply c_pair_whole|]. intros r HR. eapply cy_bind; [apply IH|]. intros es [H1 H2]. apply cy_ret.
    destruct r as [e|].
    - destruct HR as [R1 R2]. split; [now apply all_cons|]. intros N. apply all_cons; [apply R2; eapply N; now left|].
      apply H2. intros u' so' do' I. apply (N u' so' do'). now right.
    - split; [exact H1|]. intros N. apply H2. intros u' so' do' I. apply (N u' so' do'). now right.
  Qed.
  Lemma c_body_whole ss dd : cyields (c_diff_list_body env rec ss dd) (both_ok ss).
  Proof.
    unfold c_diff_list_body. eapply cy_bind; [apply cy_lift|]. intros di E1. eapply cy_bind; [apply cy_lift|]. intros ddi E2.
    cbv zeta. eapply cy_bind; [apply cy_any|]. intros _ _. eapply cy_bind; [apply cy_any|]. intros _ _.
    eapply cy_weak; [apply c_pairs_whole|]. intros es [H1 H2]. split; [exact H1|].
    intros ->. apply H2. intros u so do I. simpl in E1. apply Ok_eq in E1. subst di. clear - I.
    unfold pair_up in I. simpl in I.
    assert (G : forall ks c, (forall u so do, In (u, (so, do)) c -> so = None) ->
       In (u, (so, do)) (fold_left (fun (c : dict (option obj * option obj)) (uid : string) => dset c uid (None, dget ddi uid)) ks c) -> so = None).
    { induction ks as [|k ks IH]; intros c Hc; cbn [fold_left]; [apply Hc|]. apply IH. intros u' so' do' I'.
      apply SyncFacts.In_dset in I' as [I'|E']; [eauto|now injection E']. }
    eapply G; [|exact I]. intros ? ? ? [].
  Qed.
End CStep.
Lemma c_list_whole fuel env : forall ss dd, cyields (c_diff_object_list fuel env ss dd) (both_ok ss).
Proof. induction fuel as [|fuel IH]; intros ss dd; cbn [c_diff_object_list]; [apply cy_raise|]. now apply c_body_whole. Qed.
Lemma c_types_whole fuel env ts : forall gs, all_in whole (children gs) -> cyields (c_diff_types fuel env ts gs) (fun gs' => all_in whole (children gs')).
Proof.
  induction ts as [|t ts IH]; intros gs H; cbn [c_diff_types]; [now apply cy_ret|].
  eapply cy_bind; [apply cy_any|]. intros ss _. eapply cy_bind; [apply cy_any|]. intros dd _. eapply cy_bind; [apply c_list_whole|]. intros es [E1 _].
  eapply cy_bind; [apply cy_lift|]. intros gs' E. apply IH. exact (add_elems_all _ _ _ _ E E1 H).
Qed.
Lemma from_whole fuel dst src dc flags cb w l w' d : talk (c_diff_from fuel dst src dc flags cb w) l (Done (w', Ok d)) -> deletes_whole (d_groups d).
Proof.
  intros T. assert (Y : cyields (c_diff_from fuel dst src dc flags cb) (fun d => all_in whole (children (d_groups d)))).
  { unfold c_diff_from. eapply cy_bind; [apply cy_any|]. intros sa _. eapply cy_bind; [apply cy_any|]. intros da _. eapply cy_bind; [apply cy_any|]. intros n _. eapply cy_bind; [apply cy_any|]. intros m _. cbv zeta.
    set (env := mkEnv _ _ _ _ _ _ _). assert (C : cyields (c_calculate_diffs fuel env dc (ad_top da) (ad_top sa)) (fun d => all_in whole (children (d_groups d)))).
    { unfold c_calculate_diffs. eapply cy_bind; [apply cy_any|]. intros _ _. eapply cy_bind; [apply c_types_whole, all_nil|]. intros gs HG s. constructor. exact HG. }
    intros w0. eapply all_ends_then; [apply C|]. intros [s [x|e]] F; constructor; exact F. }
  pose proof (all_ends_talk _ _ _ _ (Y w) T) as X. unfold fine_end in X. cbn [snd] in X.
  intros e k O A I. apply occurs_children in O as (x & Ix & Jx). specialize (X x e Ix Jx).
  apply action_delete in A as [A _]. apply action_delete. apply (X A k I).
Qed.
Lemma talk_cut_done {A B} (p : cprog A) (g : A -> cprog B) l y : talk (cthen p g) l (Done y) -> exists x l1 l2, l = l1 ++ l2 /\ talk p l1 (Done x) /\ talk (g x) l2 (Done y).
Proof.
  revert l. induction p as [x|k f IH|k o p IH|k f IH|k p IH|pat f IH]; cbn [cthen]; intros l T; [exists x, [], l; split; [reflexivity|]; split; [constructor|exact T]|..].
  all: inversion T; subst; clear T.
  all: match goal with H : talk _ _ _ |- _ => apply IH in H as (y0 & l1 & l2 & -> & T1 & T2) end.
  all: match goal with |- exists x a b, ?m :: _ = _ /\ _ => exists y0, (m :: l1), l2 end; (split; [reflexivity|]); (split; [constructor; exact T1|exact T2]).
Qed.
Lemma call_whole fuel dst src dc flags cb w l w' d : talk (issued dst (KDiff fuel src dc flags cb) w) l (Done (w', Ok (RDiff d))) -> deletes_whole (d_groups d).
Proof.
  intros T. cbn [issued] in T. unfold cfmap, cbind at 1 in T. apply talk_cut_done in T as ([w1 [x|e]] & l1 & l2 & -> & T1 & T2); cbn [fst snd] in T2; inversion T2; subst.
  exact (from_whole _ _ _ _ _ _ _ _ _ _ T1).
Qed.
(** ** The calls *)
Definition read_unskipped (l : list wire) : Prop := forall k o, In (WGet k (Some o)) l -> N.testbit (o_flags o) 1 = false.
Lemma nat_given fuel h dst src dc flags cb d w l q : to_redis dst w -> diff_len d <> 0 -> deletes_whole (d_groups d) -> read_unskipped l ->
  talk (issued dst (KSync fuel h src dc flags cb (Some d)) w) l q -> length l <= 5 * diff_len d.
Proof.
  intros R NZ DW RP T. cbn [issued] in T. unfold cfmap, cbind at 1 in T.
  assert (T' : exists q', talk (c_sync_from fuel (unseeing h) dst src dc flags cb (Some d) w) l q').
  { apply talk_cut in T as [T|(x & l1 & l2 & -> & T1 & T2)]; [exact T|]. destruct (snd x); inversion T2; subst; rewrite app_nil_r; eauto. }
  clear T q. destruct T' as (q & T). unfold c_sync_from, cbind at 1 in T. cbn [here cthen ret fst snd] in T.
  assert (DT : diff_truthy (Some d) = true) by (cbn [diff_truthy]; destruct (Nat.eqb_spec (diff_len d) 0); [contradiction|reflexivity]). rewrite DT in T.
  destruct (negb (isinstance d dc)); cbn [andb raise ret fst snd] in T; [inversion T; subst; cbn; lia|]. unfold cbind at 1 in T. cbn [here cthen ret fst snd] in T.
  exact (run_nat _ _ _ _ _ _ _ _ _ _ R DW RP T).
Qed.
Lemma nat_computed kinds fuel h dst src dc flags cb w sa da rs l q : nth_error (w_ads w) src = Some sa -> nth_error (w_ads w) dst = Some da ->
  store_kind src w rs -> store_kind dst w true -> NoDup (ad_top da) -> (forall r o, nth_error (w_heap w) r = Some o -> by_type kinds o) ->
  (forall k o, In (WGet k (Some o)) l -> by_type kinds o) -> read_unskipped l -> talk (issued dst (KSync fuel h src dc flags cb None) w) l q ->
  exists l1 l2, l = l1 ++ l2 /\ (let c := redis_or_not rs + 1 in length l1 <= c + (length (ad_top da) + length (ad_top sa)) + keys_listed (skipn c l1) + children_read l1) /\
    (l2 = [] \/ exists w' d, talk (issued dst (KDiff fuel src dc flags cb) w) l1 (Done (w', Ok (RDiff d))) /\ length l2 <= 5 * diff_len d).
Proof.
  intros ES ED KS KD ND HO RO RP T. cbn [issued] in T. unfold cfmap, cbind at 1 in T.
  assert (T' : exists q', talk (c_sync_from fuel (unseeing h) dst src dc flags cb None w) l q').
  { apply talk_cut in T as [T|(x & l1 & l2 & -> & T1 & T2)]; [exact T|]. destruct (snd x); inversion T2; subst; rewrite app_nil_r; eauto. }
  clear T q. destruct T' as (q & T). unfold c_sync_from, cbind at 1 in T. cbn [here cthen ret fst snd] in T. unfold cbind at 1 in T.
  apply talk_cut in T as [(q' & T)|([w' [d|e]] & l1 & l2 & -> & T1 & T2)].
  - exists l, []. split; [now rewrite app_nil_r|]. split; [|now left]. exact (proj1 (from_cost kinds fuel dst src dc flags cb w sa da rs true l q' ES ED KS KD ND HO RO T)).
  - destruct (from_cost kinds fuel dst src dc flags cb w sa da rs true l1 _ ES ED KS KD ND HO (fun k o I => RO k o (in_or_app _ _ _ (or_introl I))) T1) as [L1 K1].
    exists l1, l2. split; [reflexivity|]. split; [exact L1|]. right. exists w', d. split; [cbn [issued]; unfold cfmap, cbind; exact (talk_then _ _ _ _ T1)|]. cbn [fst snd] in T2.
    assert (R : to_redis dst w'). { destruct (K1 w' (Ok d) eq_refl) as (ad & E & K). destruct (ad_store ad) as [|i] eqn:AS; [discriminate K|]. now exists ad, i. }
    refine (run_nat _ _ _ _ _ _ _ _ _ _ R (from_whole _ _ _ _ _ _ _ _ _ _ T1) _ T2). intros k o I. apply (RP k), in_or_app. now right.
  - destruct (from_cost kinds fuel dst src dc flags cb w sa da rs true l1 _ ES ED KS KD ND HO (fun k o I => RO k o (in_or_app _ _ _ (or_introl I))) T1) as [L1 _].
    exists l1, l2. split; [reflexivity|]. split; [exact L1|]. left. cbn [fst snd] in T2. now inversion T2.
Qed.
