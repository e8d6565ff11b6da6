(** * PartFacts: a diff that is applied in parts. *)
From Verif Require Export PartSpec ObsFacts.

(** Computations from states related by [R] to states related by [Q], or by [E] after an exception *)
Definition par3 {S A} (R Q E : S -> S -> Prop) (m m' : M S A) : Prop :=
  forall s s', R s s' -> snd (m' s') = snd (m s) /\ match snd (m s) with Ok _ => Q | Err _ => E end (fst (m s)) (fst (m' s')).
Lemma par3_bind {S A B} (R Q T E : S -> S -> Prop) (m m' : M S A) (k k' : A -> M S B) : par3 R Q E m m' -> (forall a, par3 Q T E (k a) (k' a)) -> par3 R T E (bind m k) (bind m' k').
Proof.
  intros H K s s' I. destruct (H s s' I) as (H1 & H2). unfold bind. destruct (m s) as [t r], (m' s') as [t' r']. cbn [fst snd] in *. subst r'. destruct r as [a|e]; [now apply K|auto].
Qed.
Lemma par3_lift {S A} (R E : S -> S -> Prop) (r : result A) : (forall s s', R s s' -> E s s') -> par3 R R E (lift r) (lift r).
Proof. intros H s s' I. split; [reflexivity|]. cbn. destruct r; auto. Qed.
Lemma par3_modify {S} (R Q E : S -> S -> Prop) f : (forall s s', R s s' -> Q (f s) (f s')) -> par3 R Q E (modify f) (modify f).
Proof. intros H s s' I. split; [reflexivity|]. cbn. auto. Qed.
Lemma par3_weak {S A} (R Q : S -> S -> Prop) (m m' : M S A) : (forall s s', R s s' -> Q s s') -> par R m m' -> par3 R Q Q m m'.
Proof. intros H P s s' I. destruct (P s s' I) as (P1 & P2). split; [exact P2|]. destruct (snd (m s)); auto. Qed.

Section Keep.
Variable keep : event -> bool.
Hypothesis keep_cb : forall s n m, keep (EvCallback s n m) = false.
Hypothesis keep_debug : forall c st msg, keep (EvLog LDebug c st msg) = false.
Notation so := (same_save keep).
Notation so_s := (so_s keep).
(** only the worlds are the same *)
Definition so_0 (s s' : sstate) : Prop := so (ss_w s) (ss_w s').
Definition so_1 (s s' : sstate) : Prop := so (ss_w s) (ss_w s') /\ ss_class s' = ss_class s.
Section Syncer.
  Variables (env env' : senv).
  Hypothesis ES : sv_src env' = sv_src env.
  Hypothesis ED : sv_dst env' = sv_dst env.
  Hypothesis EF : same_but_logging (sv_flags env) (sv_flags env').
  Hypothesis EH : sv_hooks env' = sv_hooks env.
  Hypothesis EU : sv_fuel env' = sv_fuel env.
  Hypothesis IH : deaf keep (sv_hooks env).
  Lemma part_body e p ks ks' : Forall2 (fun k k' => forall p, par so_s (k p) (k' p)) ks ks' -> par3 so_0 so_0 so_0 (sync_body env e p ks) (sync_body env' e p ks').
  Proof.
    intros F. unfold sync_body. rewrite ES, ED.
    apply (par3_bind so_0 so_0 so_0 so_0).
    { intros s s' H. destruct (par_adapter keep (sv_dst env) _ _ H) as (H1 & H2). unfold slift. cbn [fst snd]. split; [exact H2|]. destruct (snd (get_adapter (sv_dst env) (ss_w s))); exact H1. }
    intros ad. apply (par3_bind so_0 so_0 so_0 so_0); [now apply par3_lift|]. intros c.
    apply (par3_bind so_0 so_1 so_0 so_0); [apply par3_modify; intros s s' H; split; [exact H|reflexivity]|]. intros u0.
    apply (par3_bind so_1 so_1 so_0 so_0); [apply par3_lift; now intros s s' (H & _)|]. intros uid.
    apply (par3_bind so_1 so_s so_0 so_0); [apply par3_modify; intros s s' (H & C); repeat split; try apply H; exact C|]. intros u1.
    apply par3_weak; [now intros s s' (H & _)|]. cbv zeta.
    apply par_bind; [apply par_slift, par_or_none|]. intros u2. apply par_bind; [apply par_slift, par_get_dst; auto|]. intros m. apply par_bind; [apply par_slift, par_flag|]. intros nat. apply par_bind; [apply par_slift, par_flag|]. intros sk.
    apply par_get. intros s s' (E & A & C & X). rewrite A. apply par_bind; [destruct (_ && _)%bool; [now apply par_kids|apply par_ret]|]. intros u3. apply par_bind; [apply par_model; auto|]. intros cm.
    destruct (snd cm) as [r|]; [|apply par_bind; [apply par_slog|intros ?; apply par_ret]].
    apply par_get. intros t t' (E' & A' & C' & X'). rewrite A'. apply par_bind; [apply par_slift, par_apply; auto|]. intros stop. destruct stop; [apply par_ret|].
    apply par_bind; [apply par_sincr; auto|]. intros u4. destruct (_ || _)%bool; [now apply par_kids|apply par_ret].
  Qed.
  Lemma part_elem ord e p : par3 so_0 so_0 so_0 (sync_elem ord env e p) (sync_elem ord env' e p).
  Proof.
    rewrite !sync_elem_eq. apply part_body. rewrite !(ordered_map ord (sync_elem ord _)). induction (ordered ord (fun y => y) (e_kids e)) as [|x l IHl]; constructor; [|exact IHl]. intros q. now apply par_elem.
  Qed.
  Lemma part_kids ord l : forall b, par3 so_0 so_0 so_0 (run_kids (map (sync_elem ord env) l) None b) (run_kids (map (sync_elem ord env') l) None b).
  Proof.
    induction l as [|e l IHl]; intros b; cbn [map run_kids]; [intros s s' H; split; [reflexivity|exact H]|]. eapply par3_bind; [apply part_elem|]. intros b'. apply IHl.
  Qed.
End Syncer.

(** one synchronisation, as a run over its elements *)
Lemma run_app l m p b : forall s, run_kids (l ++ m) p b s = bind (run_kids l p b) (fun b' => run_kids m p b') s.
Proof.
  revert b. induction l as [|k l IHl]; intros b s; [reflexivity|]. cbn [app run_kids]. unfold bind. destruct (k p s) as [s1 [b1|x]]; [|reflexivity]. rewrite IHl. reflexivity.
Qed.
Lemma given_runs fuel h dst src dc flags cb d w : diff_len d <> 0 -> isinstance d dc = true ->
  sync_from fuel h dst src dc flags cb (Some d) w = run_sync (mkSEnv src dst flags (diff_len d) cb h fuel) d w.
Proof. intros L I. unfold sync_from, bind, ret, diff_truthy. destruct (Nat.eqb_spec (diff_len d) 0) as [E|_]; [contradiction|]. now rewrite I. Qed.
Definition env_of (src dst : aid) flags cb h fuel (d : diff) : senv := mkSEnv src dst flags (diff_len d) cb h fuel.
Lemma run_unfold env d w : run_sync env d w =
  let r := run_kids (map (sync_elem (dc_order (d_class d)) env) (in_turn d)) None false (mkSS w 0 None None None) in
  match snd r with
  | Ok b => (if b then add_event (ss_w (fst r)) (EvSyncComplete (sv_src env) (sv_dst env)) else ss_w (fst r), Ok d)
  | Err x => (ss_w (fst r), Err x)
  end.
Proof.
  unfold run_sync, perform_sync, in_turn. rewrite (ordered_map _ (sync_elem _ env)). cbv zeta. unfold bind. destruct (run_kids _ None false _) as [s [b|x]]; cbn [fst snd]; [|reflexivity]. now destruct b.
Qed.

Lemma run_b l p b : forall s, run_kids l p b s = (fst (run_kids l p false s), match snd (run_kids l p false s) with Ok c => Ok (b || c) | Err x => Err x end).
Proof.
  revert b. induction l as [|k l IHl]; intros b s; cbn [run_kids]; [unfold ret; cbn [fst snd]; now rewrite orb_false_r|]. unfold bind. destruct (k p s) as [s1 [c|x]]; [|reflexivity]. rewrite (IHl (b || c)), (IHl (false || c)). cbn [fst snd orb].
  destruct (run_kids l p false s1) as [s2 [e|x]]; cbn [fst snd]; [|reflexivity]. now rewrite orb_assoc.
Qed.
Section Parts.
  Variables (fuel : nat) (h : hooks) (dst src : aid) (dc : diffclass) (flags flags' : N) (cb cb' : bool) (cl : diffclass) (n : nat).
  Hypothesis UN : deaf keep h.
  Hypothesis KC : forall a b, keep (EvSyncComplete a b) = false.
  Hypothesis SL : same_but_logging flags flags'.
  Notation whole := (mkSEnv src dst flags' n cb' h fuel).
  Lemma parts_run ds : (forall d, In d ds -> d_class d = cl /\ diff_len d <> 0 /\ isinstance d dc = true) -> forall w s b, so w (ss_w s) ->
    let r := run_kids (map (sync_elem (dc_order cl) whole) (concat (map in_turn ds))) None b s in
    let t := sync_parts fuel h dst src dc flags cb ds w in
    so (fst t) (ss_w (fst r)) /\ match snd t with Ok _ => exists c, snd r = Ok c | Err x => snd r = Err x end.
  Proof.
    induction ds as [|d ds IHds]; intros D w s b W; cbn [map concat sync_parts]; [split; [exact W|]; now exists b|].
    destruct (D d (or_introl eq_refl)) as (CL & NZ & IS). rewrite map_app. cbv zeta. rewrite run_app. rewrite (given_runs _ _ _ _ _ _ _ _ _ NZ IS), run_unfold. cbv zeta. rewrite CL.
    set (env := mkSEnv src dst flags (diff_len d) cb h fuel).
    destruct (part_kids env whole eq_refl eq_refl SL eq_refl eq_refl UN (dc_order cl) (in_turn d) false (mkSS w 0 None None None) s W) as (E1 & E2).
    unfold bind. rewrite (run_b (map (sync_elem (dc_order cl) whole) (in_turn d)) None b s). set (r0 := run_kids (map (sync_elem (dc_order cl) env) (in_turn d)) None false _) in *. set (r1 := run_kids _ None false s) in *. clearbody r0 r1. rewrite E1.
    destruct (snd r0) as [c|x]; cbn [fst snd]; [|split; [exact E2|reflexivity]].
    apply IHds; [intros d' I; apply D; now right|]. destruct c; [|exact E2]. apply so_event1; [apply KC|exact E2].
  Qed.
  Lemma parts_whole ds d w : (forall d', In d' ds -> d_class d' = d_class d /\ diff_len d' <> 0) -> isinstance d dc = true -> diff_len d <> 0 -> n = diff_len d -> cl = d_class d ->
    in_turn d = concat (map in_turn ds) ->
    let t := sync_parts fuel h dst src dc flags cb ds w in let r := sync_from fuel h dst src dc flags' cb' (Some d) w in
    so (fst t) (fst r) /\ snd r = match snd t with Ok _ => Ok d | Err x => Err x end.
  Proof.
    intros D IS NZ EN ECL T. cbv zeta. rewrite (given_runs _ _ _ _ _ _ _ _ _ NZ IS), run_unfold, T, <- EN, <- ECL.
    destruct (parts_run ds) with (w := w) (s := mkSS w 0 None None None) (b := false) as (E1 & E2); [|apply so_refl|].
    - intros d' I. destruct (D d' I) as (C & L). split; [congruence|]. split; [exact L|]. unfold isinstance in *. now rewrite C.
    - cbv zeta in E1, E2 |- *. set (r := run_kids _ None false _) in *. clearbody r. destruct (snd (sync_parts _ _ _ _ _ _ _ _ _)) as [[]|x].
      + destruct E2 as (c & ->). split; [|reflexivity]. cbn [fst]. destruct c; [|exact E1]. apply so_event2; [apply KC|exact E1].
      + rewrite E2. auto.
  Qed.
End Parts.
End Keep.
