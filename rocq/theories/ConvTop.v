(** * ConvTop: a synchronisation of alike adapters runs to its end. *)
From Verif Require Export ConvFits.

Lemma write_anyf h : hooks_write anyf h.
Proof. intros w hc k _. exact Logic.I. Qed.
(** the fields that are no attributes *)
Definition spared (da : adapter) (k : string) : Prop := forall t c, dget (ad_classes da) t = Some c -> ~ In k (c_attributes c).
Lemma write_spared da h : spares_attributes da h -> hooks_write (spared da) h.
Proof. intros SP w hc k I t c E. exact (SP w hc k t c I E). Qed.
Lemma spared_not da t c k : dget (ad_classes da) t = Some c -> In k (c_attributes c) -> ~ spared da k.
Proof. intros E I SP. exact (SP t c E I). Qed.

Section Top.
  Variables (fuel : nat) (h : hooks) (dst src : aid) (dc : diffclass) (flags fl : N) (cb : bool) (given : option diff) (w : world) (d : diff).
  Variables (sa da : adapter).
  Hypothesis AL : alike w fuel src dst sa da.
  Variable WX : string -> Prop.
  Hypothesis HOOKS : hooks_succeed h.
  Hypothesis WRITES : hooks_write WX h.
  Hypothesis YO : yields_once (dc_order (d_class d)).
  Variable sk : nat.
  Hypothesis FD : faithful_diff flags fuel w src dst sa da (d_groups d) sk.
  Hypothesis US : uses fuel dst src dc fl cb given w d.
  Definition env0 : senv := mkSEnv src dst fl (diff_len d) cb h fuel.

  Lemma fuel_pos : fuel <> 0.
  Proof. intros ->. now apply (al_limit _ _ _ _ _ _ AL ("", "")%string). Qed.
  Lemma good_start : good dst da w.
  Proof.
    split; [apply (al_local _ _ _ _ _ _ AL)|]. split; [apply (al_keyed _ _ _ _ _ _ AL)|]. exists (ad_store da).
    rewrite set_ad_same. apply (al_dst _ _ _ _ _ _ AL).
  Qed.
  Lemma top_ok x : In x (children (d_groups d)) -> exists m so do, m <= fuel /\ elem_ok flags env0 w sa da (ad_name sa) (ad_name da) 0 m x so do.
  Proof.
    intros I. destruct (fd_inv _ _ _ _ _ _ _ _ _ _ FD I) as (t & ss & dd & es & k & T & R & Ie).
    pose proof fuel_pos as FP. destruct fuel as [|m] eqn:EF; [congruence|].
    destruct (list_elem flags env0 w sa da (ad_name sa) (ad_name da)) with (n := 0) (m := m) (t := t) (ss := ss) (dd := dd) (es := es) (sk := k) (x := x) as (u & _ & OK); auto.
    - unfold env0. simpl. rewrite EF. exact AL.
    - eapply top_ctx. exact T.
    - exists m. do 2 eexists. split; [lia|exact OK].
  Qed.
  Lemma top_NoDup : NoDup (map tagged (children (d_groups d))).
  Proof.
    destruct FD as (lone & others & per & _ & _ & _ & F & G & _). eapply Permutation_NoDup; [|exact (grouped_NoDup _ _ G)].
    apply Permutation_map. symmetry. now apply grouped_children.
  Qed.

  Definition feet (k : key) : Prop := exists x, In x (children (d_groups d)) /\ foot env0 da w x k.
  Lemma sync_ends : exists w', sync_from fuel h dst src dc fl cb given w = (w', Ok d) /\ good dst da w' /\ moved dst feet None w w' /\
    (forall x, In x (children (d_groups d)) -> done env0 da w WX x w') /\ exists wd, read_only w wd /\ SyncFacts.apart wd dst w'.
  Proof.
    destruct (sync_from_split fuel h dst src dc fl cb given w) as [(_ & _ & _ & N)|(d' & wd & U & _ & RO & _ & E)]; [now apply N in US|].
    assert (d' = d) by (eapply uses_fun; eauto). subst d'.
    set (L := ordered (dc_order (d_class d)) (fun e => e) (d_groups d)).
    pose proof (ordered_perm _ (d_groups d) YO) as PM. fold L in PM.
    assert (IL : forall x, In x L <-> In x (children (d_groups d))).
    { intros x. split; intros I; [apply (Permutation_in _ PM I)|apply (Permutation_in _ (Permutation_sym PM) I)]. }
    assert (AL' : alike w (sv_fuel env0) (sv_src env0) (sv_dst env0) sa da) by exact AL.
    assert (OKS : forall x, In x L -> exists m so do, m <= fuel /\ elem_ok flags env0 w sa da (ad_name sa) (ad_name da) 0 m x so do).
    { intros x I. apply top_ok. now apply IL. }
    assert (NDL : NoDup (map tagged L)).
    { eapply Permutation_NoDup; [|exact top_NoDup]. apply Permutation_map. now symmetry. }
    assert (AP : src <> dst) by apply (al_apart _ _ _ _ _ _ AL).
    pose proof (good_ro _ _ _ _ RO good_start) as GD.
    assert (KR : ends (run_kids (map (sync_elem (dc_order (d_class d)) env0) L) None false) (mkSS wd 0 None None None) (fun s' _ =>
      ready env0 da (ss_w s') /\ moved dst (fun k => exists x, In x L /\ foot env0 da w x k) None wd (ss_w s') /\
      par_after da None L wd (ss_w s') /\ (forall x, In x L -> done env0 da w WX x (ss_w s')) /\
      ((forall x, In x L -> e_action x = Some ADelete) -> @None action = Some ADelete -> ss_action s' = Some ADelete))).
    { apply (kids_run (dc_order (d_class d)) env0 da w WX fuel_pos AP L).
      - intros x I. destruct (OKS x I) as (m & so & do & _ & OK).
        apply (elem_runs (dc_order (d_class d)) env0 da w WX HOOKS WRITES YO fuel_pos AP); [|apply (al_keyed _ _ _ _ _ _ AL)].
        eapply elem_fits; [exact AL'|exact OK].
      - eapply NoDup_map_inv. exact NDL.
      - eapply (feet_apart flags env0 w sa da (ad_name sa) (ad_name da) AL' 0 L fuel); [exact NDL|exact OKS].
      - split; [exact GD|]. simpl. destruct (read_only_ad _ _ _ _ RO (al_src _ _ _ _ _ _ AL)) as (s' & E' & _). rewrite E'. discriminate.
      - intros x k _ _. cbn [ss_w]. split; [exact (look_ro dst _ _ k RO)|]. intros r o Lr Hr. exists o. split; [eapply read_only_nth; eauto|apply same_data_refl].
      - exact Logic.I. }
    destruct KR as (s' & b & RUN & (GS & _) & MV & _ & DN & _).
    assert (RS : exists w', run_sync env0 d wd = (w', Ok d) /\ moved dst (fun _ => False) None (ss_w s') w' /\ good dst da w').
    { unfold run_sync, bind. unfold perform_sync. rewrite ordered_map. fold L. rewrite RUN. cbn [fst snd]. destruct b.
      - exists (add_event (ss_w s') (EvSyncComplete src dst)). split; [reflexivity|]. split; [apply moved_event|now apply good_event].
      - exists (ss_w s'). split; [reflexivity|]. split; [apply moved_refl|exact GS]. }
    destruct RS as (w' & RS & ME & GE). exists w'. split; [rewrite E; exact RS|]. split; [exact GE|]. split; [|split].
    - eapply moved_trans; [apply moved_ro; exact RO|]. eapply moved_trans; [eapply moved_weak; [| |exact MV]|eapply moved_weak; [| |exact ME]]; auto.
      + intros k (x & I & F). exists x. split; [now apply IL|exact F].
      + intros k [].
    - intros x I. apply IL in I. eapply done_moved; [exact GS|now apply DN|exact ME|auto|discriminate].
    - exists wd. split; [exact RO|]. pose proof (run_sync_apart wd dst env0 d eq_refl) as A. now rewrite RS in A.
  Qed.
End Top.
