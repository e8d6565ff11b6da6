(** * RoundFacts: a synchronisation of a diff with updates only. *)
From Verif Require Export RoundSpec FailAlike IdleFacts ConvFirst ConvCascade.

(** ** Hooks that agree on updates *)
Definition tame (a : option action) : Prop := a <> Some ACreate /\ a <> Some ADelete.
Section Agree.
  Variables (env : senv) (h' : hooks).
  Notation env' := (mkSEnv (sv_src env) (sv_dst env) (sv_flags env) (sv_total env) (sv_cb env) h' (sv_fuel env)).
  Hypothesis AG : forall w r attrs, h' w (HUpdate r attrs) = sv_hooks env w (HUpdate r attrs).

  (** the same, from a state in which an update or nothing is going on, and such a state results *)
  Definition eqv {A} (m m' : M sstate A) : Prop := forall s, tame (ss_action s) -> m' s = m s /\ tame (ss_action (fst (m s))).
  Lemma eqv_bind {A B} (m m' : M sstate A) (k k' : A -> M sstate B) : eqv m m' -> (forall x, eqv (k x) (k' x)) -> eqv (bind m k) (bind m' k').
  Proof.
    intros H K s T. destruct (H s T) as (E & T'). unfold bind. rewrite E. destruct (m s) as [s1 [x|e]]; cbn [fst] in *; [exact (K x s1 T')|auto].
  Qed.
  Lemma eqv_get {B} (k k' : sstate -> M sstate B) : (forall s, tame (ss_action s) -> eqv (k s) (k' s)) -> eqv (bind get_state k) (bind get_state k').
  Proof. intros H s T. exact (H s T s T). Qed.
  Lemma eqv_try {A} (m m' : M sstate A) p (c c' : exn -> M sstate A) : eqv m m' -> (forall x, eqv (c x) (c' x)) -> eqv (try_catch m p c) (try_catch m' p c').
  Proof.
    intros H K s T. destruct (H s T) as (E & T'). unfold try_catch. rewrite E. destruct (m s) as [s1 [x|e]]; cbn [fst] in *; [auto|].
    destruct (p e); [exact (K e s1 T')|auto].
  Qed.
  Lemma eqv_ret {A} (x : A) : eqv (ret x) (ret x).
  Proof. intros s T. auto. Qed.
  Lemma eqv_lift {A} (r : result A) : eqv (lift r) (lift r).
  Proof. intros s T. split; [reflexivity|]. destruct r; exact T. Qed.
  Lemma eqv_raise {A} x : eqv (@raise sstate A x) (raise x).
  Proof. intros s T. auto. Qed.
  Lemma eqv_slift {A} (m m' : M world A) : (forall w, m' w = m w) -> eqv (slift m) (slift m').
  Proof. intros H s T. unfold slift. rewrite H. destruct (m (ss_w s)) as [w' r]. split; [reflexivity|exact T]. Qed.
  Lemma eqv_modify f : (forall s, tame (ss_action s) -> tame (ss_action (f s))) -> eqv (modify f) (modify f).
  Proof. intros H s T. split; [reflexivity|]. exact (H s T). Qed.
  Lemma eqv_slog l st m : eqv (slog l st m) (slog l st m).
  Proof. apply eqv_get. intros s _. now apply eqv_slift. Qed.
  Lemma eqv_status a st m : eqv (log_sync_status env a st m) (log_sync_status env' a st m).
  Proof.
    unfold log_sync_status. cbn [sv_flags]. destruct a; [destruct st; apply eqv_slog|]. destruct (has_flag _ _); [apply eqv_slog|apply eqv_ret].
  Qed.
  Lemma eqv_incr : eqv (incr_elements_processed env) (incr_elements_processed env').
  Proof. intros s T. split; [reflexivity|exact T]. Qed.
  Lemma eqv_kids (L : list elem) f g : (forall x p, In x L -> eqv (f x p) (g x p)) -> forall p b, eqv (run_kids (map f L) p b) (run_kids (map g L) p b).
  Proof.
    induction L as [|x L IH]; intros H p b; cbn [map run_kids]; [apply eqv_ret|]. apply eqv_bind; [apply H; now left|]. intros c. apply IH. intros y q I. apply H. now right.
  Qed.

  Lemma update_same r attrs w : call_update env' r attrs w = call_update env r attrs w.
  Proof. unfold call_update, bind, get_state. cbn [sv_hooks]. now rewrite AG. Qed.
  Lemma eqv_model_try dm ids attrs : eqv (sync_model_try env dm ids attrs) (sync_model_try env' dm ids attrs).
  Proof.
    apply eqv_get. intros s (T1 & T2). apply eqv_bind.
    - destruct (ss_action s) as [[| |]|]; try congruence; [|apply eqv_raise]. destruct dm as [r|]; [|apply eqv_raise]. apply eqv_slift. intros w. apply update_same.
    - intros [r|]; [|apply eqv_ret]. apply eqv_bind; [now apply eqv_slift|]. intros o. apply eqv_ret.
  Qed.
  Lemma eqv_model dm ids attrs : eqv (sync_model env dm ids attrs) (sync_model env' dm ids attrs).
  Proof.
    apply eqv_get. intros s T. destruct (ss_action s) as [a|].
    - apply eqv_bind.
      + apply eqv_try; [apply eqv_bind; [apply eqv_model_try|intros; apply eqv_ret]|]. intros x. apply eqv_bind; [apply eqv_status|]. intros _.
        cbn [sv_flags]. destruct (has_flag _ _); [apply eqv_ret|apply eqv_raise].
      + intros [[m [st msg]]|]; [|apply eqv_ret]. apply eqv_bind; [apply eqv_status|]. intros; apply eqv_ret.
    - apply eqv_bind; [apply eqv_status|]. intros; apply eqv_ret.
  Qed.
  Lemma eqv_body e parent (L : list elem) f g : tame (e_action e) -> (forall x p, In x L -> eqv (f x p) (g x p)) ->
    eqv (sync_body env e parent (map f L)) (sync_body env' e parent (map g L)).
  Proof.
    intros TE HK. unfold sync_body. cbn [sv_dst sv_src]. apply eqv_bind; [now apply eqv_slift|]. intros ad. apply eqv_bind; [apply eqv_lift|]. intros c.
    apply eqv_bind; [now apply eqv_modify|]. intros _. apply eqv_bind; [apply eqv_lift|]. intros u. apply eqv_bind; [now apply eqv_modify|]. intros _. cbv zeta.
    apply eqv_bind; [now apply eqv_slift|]. intros _. apply eqv_bind; [now apply eqv_slift|]. intros dm.
    apply eqv_bind; [now apply eqv_slift|]. intros nat. apply eqv_bind; [now apply eqv_slift|]. intros skip. apply eqv_get. intros s T.
    apply eqv_bind; [destruct (nat && _ && _); [now apply eqv_kids|apply eqv_ret]|]. intros _. apply eqv_bind; [apply eqv_model|]. intros [b [r|]]; cbn [fst snd].
    - apply eqv_get. intros s1 T1. apply eqv_bind; [now apply eqv_slift|]. intros stop. destruct stop; [apply eqv_ret|].
      apply eqv_bind; [apply eqv_incr|]. intros _. destruct (negb nat || _); [now apply eqv_kids|apply eqv_ret].
    - apply eqv_bind; [apply eqv_slog|]. intros; apply eqv_ret.
  Qed.
  Lemma eqv_elem ord gs : (forall e, occurs e gs -> tame (e_action e)) -> forall e, occurs e gs -> forall p, eqv (sync_elem ord env e p) (sync_elem ord env' e p).
  Proof.
    intros HN. induction e as [e IH] using elem_ind'. intros O p. rewrite !sync_elem_eq, !(ordered_map ord (sync_elem ord _)). apply eqv_body; [auto|]. intros x q Hx.
    apply ordered_sub in Hx. pose proof Hx as Hx'. apply In_children in Hx' as (t & g & m & I1 & I2). eapply IH; eauto. eapply occurs_kid; eauto.
  Qed.
  Lemma same_perform d : (forall e, occurs e (d_groups d) -> tame (e_action e)) -> forall w, perform_sync env' d (mkSS w 0 None None None) = perform_sync env d (mkSS w 0 None None None).
  Proof.
    intros HN w. unfold perform_sync. rewrite !(ordered_map _ (sync_elem _ _)).
    apply (eqv_kids _ (sync_elem (dc_order (d_class d)) env) (sync_elem (dc_order (d_class d)) env')); [|split; discriminate].
    intros x p I. apply eqv_elem with (d_groups d); [exact HN|]. apply ordered_sub in I. apply In_children in I as (t & g & m & I1 & I2). eapply occ_here; eauto.
  Qed.
End Agree.
Lemma same_run env h' d : (forall w r attrs, h' w (HUpdate r attrs) = sv_hooks env w (HUpdate r attrs)) -> (forall e, occurs e (d_groups d) -> tame (e_action e)) ->
  forall w, run_sync (mkSEnv (sv_src env) (sv_dst env) (sv_flags env) (sv_total env) (sv_cb env) h' (sv_fuel env)) d w = run_sync env d w.
Proof. intros AG HN w. unfold run_sync, bind. cbv zeta. now rewrite (same_perform env h' AG d HN w). Qed.
Lemma same_sync fuel h h' dst src dc flags cb given w : (forall w r attrs, h' w (HUpdate r attrs) = h w (HUpdate r attrs)) ->
  (forall d e, uses fuel dst src dc flags cb given w d -> occurs e (d_groups d) -> tame (e_action e)) ->
  sync_from fuel h' dst src dc flags cb given w = sync_from fuel h dst src dc flags cb given w.
Proof.
  intros AG HN.
  assert (R : forall d w', uses fuel dst src dc flags cb given w d ->
    run_sync (mkSEnv src dst flags (diff_len d) cb h' fuel) d w' = run_sync (mkSEnv src dst flags (diff_len d) cb h fuel) d w').
  { intros d w' U. exact (same_run (mkSEnv src dst flags (diff_len d) cb h fuel) h' d AG (fun e => HN d e U) w'). }
  assert (G : (given = None \/ exists d', given = Some d' /\ diff_len d' = 0) -> forall A (k k' : diff -> M world A),
     (forall d w', uses fuel dst src dc flags cb given w d -> k' d w' = k d w') -> bind (diff_from fuel dst src dc flags cb) k' w = bind (diff_from fuel dst src dc flags cb) k w).
  { intros GN A k k' K. unfold bind. destruct (diff_from fuel dst src dc flags cb w) as [wd [d|x]] eqn:E; [|reflexivity]. apply K. right. split; [exact GN|]. now rewrite E. }
  unfold sync_from. destruct given as [d0|].
  - unfold diff_truthy. destruct (Nat.eqb (diff_len d0) 0) eqn:Z; cbn [negb andb].
    + apply Nat.eqb_eq in Z. unfold bind at 1 3. unfold ret at 1 2. apply G; [right; eauto|exact R].
    + destruct (isinstance d0 dc) eqn:I; cbn [negb]; [|reflexivity]. unfold bind, ret. apply R. left. apply Nat.eqb_neq in Z. auto.
  - unfold bind at 1 3. unfold ret at 1 2. apply G; [now left|exact R].
Qed.

(** ** The diff afterwards *)
Lemma but_only da X d : (forall x, occurs x (d_groups d) -> but_written da X x) -> differs_only X d.
Proof.
  intros B e O. destruct (B e O) as (s & t & E1 & E2 & K). unfold e_action. rewrite E1, E2 in *. repeat split.
  - unfold attrs_action. destruct (existsb _ _); discriminate.
  - unfold attrs_action. destruct (existsb _ _); discriminate.
  - intros k (s' & t' & a & b & E3 & E4 & G1 & G2 & N). rewrite E1 in E3. rewrite E2 in E4. injection E3 as <-. injection E4 as <-. apply (K k).
    + cbn [attrs_keys]. unfold intersection. apply filter_In. rewrite smem_In. split; eapply dget_Some_key; eauto.
    + unfold attr_differs. now rewrite G1, G2, N.
Qed.
Lemma but_tame da X d : (forall x, occurs x (d_groups d) -> but_written da X x) -> forall x, occurs x (d_groups d) -> tame (e_action x).
Proof. intros B x O. destruct (but_only da X d B x O) as (A1 & A2 & _). now split. Qed.
Lemma but_none da (X : string -> Prop) d : (forall k t c, X k -> dget (ad_classes da) t = Some c -> ~ In k (c_attributes c)) -> (forall x, occurs x (d_groups d) -> but_written da X x) ->
  forall x, occurs x (d_groups d) -> e_action x = None.
Proof.
  intros SP B x O. destruct (B x O) as (s & t & E1 & E2 & K). unfold e_action. rewrite E1, E2 in *. unfold attrs_action. destruct (existsb _ _) eqn:EX; [|reflexivity]. exfalso.
  apply existsb_exists in EX as (k & IK & DI). destruct (K k IK DI) as (X' & c & C1 & C2). exact (SP _ _ _ X' C1 C2).
Qed.

Lemma only_written X fuel h dst src dc flags cb w sa da : alike w fuel src dst sa da -> comparable w fuel src dst sa da ->
  hooks_succeed h -> hooks_write X h -> yields_once (dc_order dc) -> exists w' d, sync_from fuel h dst src dc flags cb None w = (w', Ok d) /\
    snd (diff_from fuel dst src dc flags cb w) = Ok d /\ yields_once (dc_order (d_class d)) /\ forall dc' cb',
    exists d', snd (diff_from fuel dst src dc' flags cb' w') = Ok d' /\ forall x, occurs x (d_groups d') -> but_written da X x.
Proof.
  intros AL CM HK HW YO. destruct (compares fuel dst src dc flags cb w sa da AL CM) as (d & D). pose proof D as D'.
  apply (diff_from_iff fuel dst src dc flags cb w sa da) in D' as (_ & _ & DC & _); try apply AL.
  assert (YD : yields_once (dc_order (d_class d))) by now rewrite DC.
  destruct (settles X fuel h dst src dc dc flags flags cb cb None w d sa da AL HK HW D YD) as (w' & E & H).
  - right. split; [now left|exact D].
  - exists w', d. auto.
Qed.

(** what holds after a synchronisation whose hooks succeed *)
Definition repaired (fuel : nat) (dst src : aid) (flags : N) (w : world) (sa da : adapter) : Prop :=
  alike w fuel src dst sa da /\ comparable w fuel src dst sa da /\ children_deletable w dst da /\
  forall dc cb d x, snd (diff_from fuel dst src dc flags cb w) = Ok d -> occurs x (d_groups d) -> tame (e_action x).
Lemma succeed_honest h : hooks_succeed h -> hooks_honest h.
Proof. intros H w hc _. apply H. Qed.
Lemma succeed_deletes h : hooks_succeed h -> deletes_succeed h.
Proof. intros H w r. split; apply H. Qed.
Lemma after_one fuel h dst src dc flags cb w sa da : alike w fuel src dst sa da -> comparable w fuel src dst sa da -> children_deletable w dst da ->
  hooks_succeed h -> yields_once (dc_order dc) -> exists s s', repaired fuel dst src flags (fst (sync_from fuel h dst src dc flags cb None w)) (set_ad_store sa s) (set_ad_store da s').
Proof.
  intros AL CM CD HK YO. destruct (only_written (fun _ => True) fuel h dst src dc flags cb w sa da AL CM HK (fun _ _ _ _ => I) YO) as (w' & d & E & D & YD & H).
  destruct (alike_again fuel h dst src dc dc flags flags cb cb None w d sa da AL CM CD (succeed_honest h HK) (succeed_deletes h HK) D YD) as (s & s' & A & B & C).
  { right. split; [now left|exact D]. }
  exists s, s'. rewrite E in *. cbn [fst] in *. split; [exact A|]. split; [exact B|]. split; [exact C|]. intros dc' cb' d' x D' O.
  destruct (H dc' cb') as (d'' & D'' & BW). rewrite D' in D''. injection D'' as <-. exact (but_tame _ _ _ BW x O).
Qed.
Definition updates_only (h : hooks) : hooks := fun w hc => match hc with HUpdate _ _ => h w hc | _ => default_outcome end.
Lemma after_two Y fuel h dst src dc flags cb w sa da : repaired fuel dst src flags w sa da ->
  hooks_succeed h -> updates_write Y h -> yields_once (dc_order dc) -> exists w' d, sync_from fuel h dst src dc flags cb None w = (w', Ok d) /\ forall dc' cb',
    exists d', snd (diff_from fuel dst src dc' flags cb' w') = Ok d' /\ forall x, occurs x (d_groups d') -> but_written da Y x.
Proof.
  intros (AL & CM & CD & TM) HK UW YO.
  destruct (only_written Y fuel (updates_only h) dst src dc flags cb w sa da AL CM) as (w' & d & E & _ & _ & H).
  - intros w1 hc. unfold updates_only. destruct hc; try apply HK; split; reflexivity.
  - intros w1 hc k I. unfold updates_only in I. destruct hc; try contradiction. eapply UW; eauto.
  - exact YO.
  - exists w', d. split; [|exact H]. rewrite <- E. symmetry. apply same_sync; [reflexivity|]. intros d1 e U O.
    destruct U as [(X & _)|(_ & D)]; [discriminate|]. exact (TM dc cb d1 e D O).
Qed.
Lemma classes_set da s : ad_classes (set_ad_store da s) = ad_classes da.
Proof. reflexivity. Qed.
Lemma set_set da s s' : set_ad_store (set_ad_store da s) s' = set_ad_store da s'.
Proof. reflexivity. Qed.
Lemma but_set da s X x : but_written (set_ad_store da s) X x -> but_written da X x.
Proof. exact (fun H => H). Qed.

Lemma after_more fuel h dst src dc flags : hooks_succeed h -> yields_once (dc_order dc) -> forall n w sa da, repaired fuel dst src flags w sa da ->
  exists s s', repaired fuel dst src flags (rounds fuel h dst src dc flags n w) (set_ad_store sa s) (set_ad_store da s').
Proof.
  intros HK YO. induction n as [|n IH]; intros w sa da R; cbn [rounds].
  - exists (ad_store sa), (ad_store da). now rewrite !set_ad_same.
  - destruct R as (AL & CM & CD & _). destruct (after_one fuel h dst src dc flags false w sa da AL CM CD HK YO) as (s & s' & R1).
    destruct (IH _ _ _ R1) as (s1 & s1' & R2). exists s1, s1'. exact R2.
Qed.
Lemma rounds_last fuel h dst src dc flags n : forall w, rounds fuel h dst src dc flags (S n) w = fst (sync_from fuel h dst src dc flags false None (rounds fuel h dst src dc flags n w)).
Proof. induction n as [|n IH]; intros w; [reflexivity|]. cbn [rounds] in *. apply IH. Qed.
Lemma after_rounds Y fuel h dst src dc flags w sa da n : alike w fuel src dst sa da -> comparable w fuel src dst sa da -> children_deletable w dst da ->
  hooks_succeed h -> updates_write Y h -> yields_once (dc_order dc) -> forall dc' cb',
  exists d', snd (diff_from fuel dst src dc' flags cb' (rounds fuel h dst src dc flags (2 + n) w)) = Ok d' /\ forall x, occurs x (d_groups d') -> but_written da Y x.
Proof.
  intros AL CM CD HK UW YO dc' cb'. cbn [Nat.add]. rewrite rounds_last. cbn [rounds].
  destruct (after_one fuel h dst src dc flags false w sa da AL CM CD HK YO) as (s & s' & R1).
  destruct (after_more fuel h dst src dc flags HK YO n _ _ _ R1) as (s1 & s1' & R2).
  destruct (after_two Y fuel h dst src dc flags false _ _ _ R2 HK UW YO) as (w' & d & E & H). rewrite E. cbn [fst].
  destruct (H dc' cb') as (d' & D & B). exists d'. split; [exact D|exact B].
Qed.
