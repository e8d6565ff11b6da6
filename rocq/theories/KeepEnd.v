(** * KeepEnd: sequences of edits that are written back, and synchronisations. *)
From Verif Require Export KeepFacts.

Lemma label_ne i j s s' : plain i = true -> plain j = true -> i <> j -> ("diffsync:" ++ i ++ ":" ++ s)%string <> ("diffsync:" ++ j ++ ":" ++ s')%string.
Proof. intros P Q N E. apply app_inj in E. destruct (colon_inj _ _ _ _ P Q E). contradiction. Qed.

Section Group.
  Variables (fuel : nat) (cs : dict cls) (tops : list string) (U : list row) (w0 : world).
  Notation ads := (w_ads w0).
  Hypothesis RL : realm fuel cs tops U.
  Hypothesis F2 : 2 <= fuel.
  Hypothesis VA : vacant w0 cs tops U.
  Definition at_local (a : aid) : Prop := exists ad d, nth_error ads a = Some ad /\ ad_store ad = SLocal d.
  Definition at_redis (a : aid) (i : string) : Prop := exists ad, nth_error ads a = Some ad /\ ad_store ad = SRedis i.
  Lemma either a : a < length ads -> at_local a \/ exists i, at_redis a i.
  Proof. intros L. destruct (at_ad ads a L) as (ad & A). destruct (ad_store ad) as [d|i] eqn:S; [left; exists ad, d; auto|right; exists i, ad; auto]. Qed.
  Lemma local_len a : at_local a -> a < length ads.
  Proof. intros (ad & d & A & _). apply nth_error_Some. congruence. Qed.
  Lemma redis_len a i : at_redis a i -> a < length ads.
  Proof. intros (ad & A & _). apply nth_error_Some. congruence. Qed.
  Lemma not_both a i : at_local a -> at_redis a i -> False.
  Proof. intros (ad & d & A & B) (ad' & A' & B'). congruence. Qed.
  Lemma classes a ad : nth_error ads a = Some ad -> ad_classes ad = cs /\ ad_top ad = tops.
  Proof. intros A. apply nth_error_In in A. destruct (va_ads _ _ _ _ VA ad A) as (X & Y & _). auto. Qed.
  Lemma redis_plain a i : at_redis a i -> plain i = true.
  Proof. intros (ad & A & B). apply nth_error_In in A. destruct (va_ads _ _ _ _ VA ad A) as (_ & _ & X). rewrite B in X. apply X. Qed.

  Lemma sp_local a b : at_local a -> same_place ads a b = Nat.eqb a b.
  Proof. intros (ad & d & A & B). unfold same_place. rewrite A, B. destruct (Nat.eqb a b); [reflexivity|]. cbn [orb]. now destruct (nth_error ads b). Qed.
  Lemma sp_local' a b : at_local b -> same_place ads a b = Nat.eqb a b.
  Proof. intros (bd & d & A & B). unfold same_place. rewrite A, B. destruct (Nat.eqb a b); [reflexivity|]. cbn [orb]. destruct (nth_error ads a) as [ad|]; [|reflexivity]. now destruct (ad_store ad). Qed.
  Lemma sp_redis a b i j : at_redis a i -> at_redis b j -> same_place ads a b = String.eqb i j.
  Proof.
    intros (ad & A & B) (bd & A' & B'). unfold same_place. rewrite A, A', B, B'. destruct (Nat.eqb_spec a b) as [->|]; [|reflexivity]. cbn [orb]. assert (i = j) by congruence. subst j. now rewrite String.eqb_refl.
  Qed.
  Lemma pa_here D a rows : put_all ads D a rows a = rows.
  Proof. unfold put_all, same_place. now rewrite Nat.eqb_refl. Qed.

  Record kept (D : aid -> list row) (w : world) : Prop := mkKept {
    kp_refs : w_ok w;
    kp_ads : forall a ad, nth_error ads a = Some ad -> exists s, nth_error (w_ads w) a = Some (set_ad_store ad s);
    kp_redis : forall a ad i, nth_error ads a = Some ad -> ad_store ad = SRedis i -> nth_error (w_ads w) a = Some ad;
    kp_apart : forall a b, at_local a -> at_local b -> a <> b -> share_nothing w a b;
    kp_of : forall a, a < length ads -> of_realm cs U (D a);
    kp_proper : forall a, a < length ads -> proper_values cs (D a);
    kp_set : forall a, a < length ads -> dataset cs tops (D a);
    kp_data : forall a, at_local a -> carries w a cs (D a);
    kp_shelf : forall a i, at_redis a i -> on_shelf w i cs (D a);
    kp_same : forall a b i, at_redis a i -> at_redis b i -> D a = D b;
    kp_once : NoDup (dkeys (w_redis w));
    kp_out : forall k, (forall a i s, at_redis a i -> k <> ("diffsync:" ++ i ++ ":" ++ s)%string) -> dget (w_redis w) k = dget (w_redis w0) k
  }.

  (** ** One adapter is edited *)
  Section Edit.
    Variables (D : aid -> list row) (w : world).
    Hypothesis KP : kept D w.
    Variables (a : aid) (rows' : list row) (w' : world).
    Hypothesis OF : of_realm cs U rows'.
    Hypothesis PV : proper_values cs rows'.
    Hypothesis DS : dataset cs tops rows'.
    Lemma pa_of b : b < length ads -> of_realm cs U (put_all ads D a rows' b).
    Proof. intros L. unfold put_all. destruct (same_place ads a b); [exact OF|now apply (kp_of _ _ KP)]. Qed.
    Lemma pa_proper b : b < length ads -> proper_values cs (put_all ads D a rows' b).
    Proof. intros L. unfold put_all. destruct (same_place ads a b); [exact PV|now apply (kp_proper _ _ KP)]. Qed.
    Lemma pa_set b : b < length ads -> dataset cs tops (put_all ads D a rows' b).
    Proof. intros L. unfold put_all. destruct (same_place ads a b); [exact DS|now apply (kp_set _ _ KP)]. Qed.

    Lemma local_edit : at_local a -> edited cs a rows' w w' -> kept (put_all ads D a rows') w'.
    Proof.
      intros AL (FR & LH & OT & BK & CA). pose proof FR as (FR1 & FR2 & FR3 & FR4). pose proof (kp_refs _ _ KP) as OK.
      assert (LO : forall b, at_local b -> local_ok w b) by (intros b LB; exact (ca_local _ _ _ _ (kp_data _ _ KP b LB))).
      assert (LO' : forall b, at_local b -> local_ok w' b).
      { intros b LB. destruct (Nat.eq_dec b a) as [->|NB]; [exact (ca_local _ _ _ _ CA)|]. unfold local_ok. rewrite (FR3 b NB). now apply LO. }
      assert (LK : forall b t u, b <> a -> lookup w' b t u = lookup w b t u) by (intros b t u NB; unfold lookup; now rewrite (FR3 b NB)).
      assert (AP : forall b, at_local b -> b <> a -> forall t u r t' u', lookup w' b t u = Some r -> lookup w' a t' u' = Some r -> False).
      { intros b LB NB t u r t' u' L L'. rewrite (LK b t u NB) in L. destruct (BK _ _ _ L') as [L2|GE].
        - apply (proj1 (kp_apart _ _ KP b a LB AL NB) r); [exact (holds_lookup w b t u r L)|exact (holds_lookup w a t' u' r L2)].
        - pose proof (ok_ref w b t u r OK (LO b LB) L). lia. }
      assert (PB : forall b, b <> a -> put_all ads D a rows' b = D b).
      { intros b NB. unfold put_all. rewrite (sp_local a b AL). destruct (Nat.eqb_spec a b); [congruence|reflexivity]. }
      assert (NR : forall b i, at_redis b i -> b <> a) by (intros b i RB ->; exact (not_both a i AL RB)).
      split.
      - intros b bd d m bb u r A S I1 I2. destruct (Nat.eq_dec b a) as [->|NB].
        + destruct (ca_local _ _ _ _ CA) as (bd' & d' & A' & S' & N1 & N2). assert (bd' = bd) by congruence. subst bd'. assert (d' = d) by congruence. subst d'.
          assert (L : lookup w' a m u = Some r). { unfold lookup. rewrite A, S. unfold bucket. rewrite (In_dget _ _ _ N1 I1). apply In_dget; [now apply (N2 m bb)|exact I2]. }
          destruct (ca_lookup w' a cs rows' CA m u r L) as (x & o & _ & _ & H & _). apply nth_error_Some. congruence.
        + rewrite (FR3 b NB) in A. pose proof (OK b bd d m bb u r A S I1 I2). lia.
      - intros b bd B. destruct (kp_ads _ _ KP b bd B) as (s & W). destruct (Nat.eq_dec b a) as [->|NB]; [|exists s; now rewrite (FR3 b NB)]. destruct (FR4 _ W) as (s' & W'). exists s'. exact W'.
      - intros b bd i B S. rewrite FR3; [now apply (kp_redis _ _ KP b bd i)|]. apply (NR b i). exists bd. auto.
      - intros b c LB LC NB. apply share_local; [now apply LO'| |now apply LO']. intros t u r L t' u' L'.
        destruct (Nat.eq_dec b a) as [->|NA]; [exact (AP c LC (not_eq_sym NB) _ _ _ _ _ L' L)|]. destruct (Nat.eq_dec c a) as [->|NC]; [exact (AP b LB NB _ _ _ _ _ L L')|].
        rewrite (LK b _ _ NA) in L. rewrite (LK c _ _ NC) in L'. apply (proj1 (kp_apart _ _ KP b c LB LC NB) r); [exact (holds_lookup w b t u r L)|exact (holds_lookup w c t' u' r L')].
      - exact pa_of.
      - exact pa_proper.
      - exact pa_set.
      - intros b LB. destruct (Nat.eq_dec b a) as [->|NB]; [now rewrite pa_here|]. rewrite (PB b NB). split; [now apply LO'| |].
        + intros x Ix. destruct (ca_rows _ _ _ _ (kp_data _ _ KP b LB) x Ix) as (r & o & L & H & M). rewrite (LK b _ _ NB). destruct (OT r o H) as (o' & H' & Q).
          * intros HA. apply (proj1 (kp_apart _ _ KP b a LB AL NB) r); [exact (holds_lookup w b _ _ r L)|exact HA].
          * exists r, o'. split; [exact L|]. split; [exact H'|]. exact (like_adapter cs _ x o o' M Q).
        + intros k N. rewrite (LK b _ _ NB) in N. exact (ca_only _ _ _ _ (kp_data _ _ KP b LB) k N).
      - intros b i RB. rewrite (PB b (NR b i RB)). unfold on_shelf, on_server. rewrite FR1. exact (kp_shelf _ _ KP b i RB).
      - intros b c i RB RC. rewrite (PB b (NR b i RB)), (PB c (NR c i RC)). exact (kp_same _ _ KP b c i RB RC).
      - rewrite FR1. apply KP.
      - rewrite FR1. apply KP.
    Qed.
    Lemma shelf_edit i : at_redis a i -> beside i w w' -> on_shelf w' i cs rows' -> kept (put_all ads D a rows') w'.
    Proof.
      intros AR (EA & LH & EH & ER & NDw) OS. pose proof (kp_refs _ _ KP) as OK. pose proof (redis_plain a i AR) as PI.
      assert (LO : forall b, at_local b -> local_ok w b) by (intros b LB; exact (ca_local _ _ _ _ (kp_data _ _ KP b LB))).
      assert (LO' : forall b, at_local b -> local_ok w' b) by (intros b LB; unfold local_ok; rewrite EA; now apply LO).
      assert (LK : forall b t u, lookup w' b t u = lookup w b t u) by (intros b t u; unfold lookup; now rewrite EA).
      assert (PL : forall b, at_local b -> put_all ads D a rows' b = D b).
      { intros b LB. unfold put_all. rewrite (sp_local' a b LB). destruct (Nat.eqb_spec a b) as [->|]; [elim (not_both b i LB AR)|reflexivity]. }
      assert (PR : forall b j, at_redis b j -> put_all ads D a rows' b = if String.eqb i j then rows' else D b) by (intros b j RB; unfold put_all; now rewrite (sp_redis a b i j AR RB)).
      split.
      - intros b bd d m bb u r A S I1 I2. rewrite EA in A. pose proof (OK b bd d m bb u r A S I1 I2). lia.
      - rewrite EA. apply KP.
      - rewrite EA. apply KP.
      - intros b c LB LC NB. apply share_local; [now apply LO'| |now apply LO']. intros t u r L t' u' L'. rewrite LK in L, L'.
        apply (proj1 (kp_apart _ _ KP b c LB LC NB) r); [exact (holds_lookup w b t u r L)|exact (holds_lookup w c t' u' r L')].
      - exact pa_of.
      - exact pa_proper.
      - exact pa_set.
      - intros b LB. rewrite (PL b LB). apply (carries_keep w); auto; [|exact (kp_data _ _ KP b LB)]. intros t u r L. apply EH. exact (ok_ref w b t u r OK (LO b LB) L).
      - intros b j RB. rewrite (PR b j RB). destruct (String.eqb_spec i j) as [<-|NE]; [exact OS|]. pose proof (redis_plain b j RB) as PJ. destruct (kp_shelf _ _ KP b j RB) as (S1 & S2). split.
        + intros x Ix. destruct (S1 x Ix) as (o & So & R). exists o. split; [|exact R]. unfold on_server in *. rewrite ER; [exact So|]. intros s. unfold redis_key, store_label. rewrite !append_assoc. now apply label_ne; auto.
        + intros s. rewrite ER by (intros s'; apply label_ne; auto). apply S2.
      - intros b c j RB RC. rewrite (PR b j RB), (PR c j RC). destruct (String.eqb i j); [reflexivity|exact (kp_same _ _ KP b c j RB RC)].
      - exact NDw.
      - intros k H. rewrite ER by (intros s; exact (H a i s AR)). now apply (kp_out _ _ KP).
    Qed.
  End Edit.

  (** ** A synchronisation *)
  Section Step.
    Variables (D : aid -> list row) (w : world).
    Hypothesis KP : kept D w.
    Variables (src dst : aid) (sa da : adapter).
    Hypothesis NE : src <> dst.
    Hypothesis SA : nth_error ads src = Some sa.
    Hypothesis DA : nth_error ads dst = Some da.
    Hypothesis AL : at_local dst.
    Let LS : src < length ads. Proof. apply nth_error_Some. congruence. Qed.
    Let LD : dst < length ads. Proof. apply nth_error_Some. congruence. Qed.
    Lemma kp_gives : gives w src cs (D src) tops.
    Proof.
      destruct (either src LS) as [SL|(i & SR)].
      - exact (carries_gives w src cs (D src) tops (kp_refs _ _ KP) (kp_data _ _ KP src SL) (kp_set _ _ KP src LS)).
      - pose proof SR as (ad & A & B). assert (ad = sa) by congruence. subst ad.
        exact (shelf_gives fuel cs tops U RL w src sa i (D src) (kp_redis _ _ KP src sa i A B) B (proj1 (classes _ _ A)) (redis_plain src i SR) (va_types _ _ _ _ VA) (kp_once _ _ KP) (kp_shelf _ _ KP src i SR)
          (kp_set _ _ KP src LS) (kp_of _ _ KP src LS) (va_tops _ _ _ _ VA) (va_kids _ _ _ _ VA) (kp_proper _ _ KP src LS)).
    Qed.
    Lemma kp_share a : a < length ads -> a <> dst -> share_nothing w a dst.
    Proof.
      intros LA NA. destruct (either a LA) as [SL|(i & SR)]; [now apply (kp_apart _ _ KP)|]. destruct (ca_local _ _ _ _ (kp_data _ _ KP dst AL)) as (db & d & A & B & _). destruct SR as (ad & A' & B'). pose proof (kp_redis _ _ KP a ad i A' B') as W. split.
      - intros r (ad' & d' & t & u & (X & Y) & _). congruence.
      - intros x y _ (ad' & X & Y). congruence.
    Qed.
    Lemma sync_kept h dc flags cb : hooks_succeed h -> spares_attributes da h -> yields_once (dc_order dc) ->
      exists w' d, sync_from fuel h dst src dc flags cb None w = (w', Ok d) /\ kept (fun a => if Nat.eqb a dst then pool cs flags (D src) (D dst) else D a) w'.
    Proof.
      intros HK SP YO. destruct (kp_ads _ _ KP src sa SA) as (s & WS). destruct (kp_ads _ _ KP dst da DA) as (s' & WD).
      destruct (classes _ _ SA) as (SC & STp). destruct (classes _ _ DA) as (DC & DTp).
      assert (OB : of_realm cs U (D src ++ D dst)) by (apply of_app; [exact (kp_of _ _ KP src LS)|exact (kp_of _ _ KP dst LD)]).
      assert (PB : proper_values cs (D src ++ D dst)) by (apply proper_app; [exact (kp_proper _ _ KP src LS)|exact (kp_proper _ _ KP dst LD)]).
      assert (MA : matching cs cs (D src ++ D dst) (D src ++ D dst)) by exact (re_matching fuel cs tops U RL _ OB).
      assert (DSs : dataset cs (ad_top da) (D src)) by (rewrite DTp; now apply (kp_set _ _ KP)). assert (DSd : dataset cs (ad_top da) (D dst)) by (rewrite DTp; now apply (kp_set _ _ KP)).
      assert (GV : gives w src cs (D src) (ad_top sa)) by (rewrite STp; exact kp_gives).
      assert (TN : NoDup (ad_top da)) by (rewrite DTp; apply RL).
      pose proof (re_shallow fuel cs tops U RL _ OB) as SH. pose proof (re_flags fuel cs tops U RL _ OB) as NF.
      destruct (gp_sync w fuel src dst (set_ad_store sa s) (set_ad_store da s') cs (D src) (D dst) NE (kp_refs _ _ KP) (kp_share src LS NE) WS WD
        GV (kp_data _ _ KP dst AL) DC (eq_trans STp (eq_sym DTp)) DSs DSd MA PB TN F2 SH NF h dc flags cb HK SP YO) as (w' & d & E & CA & OK' & (s2 & WD') & OT & FR).
      pose proof (gp_redis w fuel src dst (set_ad_store sa s) (set_ad_store da s') cs (D src) (D dst) NE (kp_refs _ _ KP) (kp_share src LS NE) WS WD
        GV (kp_data _ _ KP dst AL) DC (eq_trans STp (eq_sym DTp)) DSs DSd MA PB TN F2 SH h dc flags cb HK SP YO) as RE. rewrite E in RE. cbn [fst] in RE.
      exists w', d. split; [exact E|].
      assert (IN : forall a, a < length ads -> a <> dst -> intact w w' a).
      { intros a LA NA. pose proof (sync_others fuel h dst src dc flags cb None w a NA (kp_refs _ _ KP) (kp_share a LA NA)) as Y. now rewrite E in Y. }
      assert (LW : forall a, at_local a -> local_ok w a) by (intros a LA; exact (ca_local _ _ _ _ (kp_data _ _ KP a LA))).
      assert (LO : forall a, at_local a -> local_ok w' a).
      { intros a LA. destruct (Nat.eq_dec a dst) as [->|NA]; [exact (ca_local _ _ _ _ CA)|]. destruct (at_ad ads a (local_len a LA)) as (ad & A). destruct (kp_ads _ _ KP a ad A) as (x & WA).
        destruct (OT a _ NA WA) as (y & WA' & SE). exact (local_ext w w' a _ y (LW a LA) WA WA' SE). }
      assert (AP : forall a, at_local a -> a <> dst -> forall t u r t' u', lookup w' a t u = Some r -> lookup w' dst t' u' = Some r -> False).
      { intros a LA NA t u r t' u' L L'. rewrite (proj1 (IN a (local_len a LA) NA)) in L. destruct (FR _ _ _ L') as [L2|GE].
        - apply (proj1 (kp_apart _ _ KP a dst LA AL NA) r); [exact (holds_lookup w a t u r L)|exact (holds_lookup w dst t' u' r L2)].
        - pose proof (ok_ref w a t u r (kp_refs _ _ KP) (LW a LA) L). lia. }
      assert (IP : incl (pool cs flags (D src) (D dst)) (D src ++ D dst)) by (intros x I; exact (pool_incl cs flags (D src) (D dst) x I)).
      assert (AW : forall a ad, nth_error ads a = Some ad -> exists s0, nth_error (w_ads w') a = Some (set_ad_store ad s0)).
      { intros a ad A. destruct (kp_ads _ _ KP a ad A) as (x & WA). destruct (Nat.eq_dec a dst) as [->|NA].
        + exists s2. assert (ad = da) by congruence. subst ad. exact WD'.
        + destruct (OT a _ NA WA) as (y & WA' & _). exists y. exact WA'. }
      assert (NR : forall a i, at_redis a i -> Nat.eqb a dst = false) by (intros a i RA; apply Nat.eqb_neq; intros ->; exact (not_both dst i AL RA)).
      split.
      - exact OK'.
      - exact AW.
      - intros a ad i A B. assert (NA : a <> dst) by (apply Nat.eqb_neq; apply (NR a i); exists ad; auto). pose proof (kp_redis _ _ KP a ad i A B) as WA. destruct (OT a _ NA WA) as (y & WA' & SE).
        rewrite B in SE. destruct y as [|j]; [destruct SE|]. cbn in SE. subst j. rewrite WA'. f_equal. rewrite <- B. now destruct ad.
      - intros a b LA LB NB. apply share_local; [now apply LO| |now apply LO]. intros t u r L t' u' L'.
        destruct (Nat.eq_dec a dst) as [->|NA]; [exact (AP b LB (not_eq_sym NB) _ _ _ _ _ L' L)|]. destruct (Nat.eq_dec b dst) as [->|NB']; [exact (AP a LA NB _ _ _ _ _ L L')|].
        rewrite (proj1 (IN a (local_len a LA) NA)) in L. rewrite (proj1 (IN b (local_len b LB) NB')) in L'.
        apply (proj1 (kp_apart _ _ KP a b LA LB NB) r); [exact (holds_lookup w a t u r L)|exact (holds_lookup w b t' u' r L')].
      - intros a LA. destruct (Nat.eqb a dst); [|now apply (kp_of _ _ KP)]. exact (of_sub cs U _ _ IP OB).
      - intros a LA. destruct (Nat.eqb a dst); [|now apply (kp_proper _ _ KP)]. exact (proper_sub cs _ _ IP PB).
      - intros a LA. destruct (Nat.eqb a dst); [|now apply (kp_set _ _ KP)]. rewrite <- DTp. apply pool_dataset; auto. apply (ma_place _ _ _ _ MA).
      - intros a LA. destruct (Nat.eqb a dst) eqn:Q.
        + apply Nat.eqb_eq in Q. subst a. exact CA.
        + apply Nat.eqb_neq in Q. destruct (IN a (local_len a LA) Q) as (I1 & I2 & _). apply (carries_keep w); auto. exact (kp_data _ _ KP a LA).
      - intros a i RA. rewrite (NR a i RA). unfold on_shelf, on_server. rewrite RE. exact (kp_shelf _ _ KP a i RA).
      - intros a b i RA RB. rewrite (NR a i RA), (NR b i RB). exact (kp_same _ _ KP a b i RA RB).
      - rewrite RE. apply KP.
      - rewrite RE. apply KP.
    Qed.
  End Step.

  Lemma change_kept D w ch : kept D w -> can_keep cs U ads D ch -> exists w', keep_change fuel ch w = (w', Ok tt) /\ kept (keep_rows cs ads D ch) w'.
  Proof.
    intros KP (CD & CL). destruct ch as [a x|a k f v|a p k|c]; cbn [can_do] in CD; cbn [keep_change keep_rows].
    - destruct CD as (LA & IU & NEW & PAR). destruct (at_ad ads a LA) as (ad & A). destruct (kp_ads _ _ KP a ad A) as (s & WA). destruct (classes a ad A) as (EC & _).
      assert (OF' : of_realm cs U (D a ++ [x])) by (apply of_app; [exact (kp_of _ _ KP a LA)|]; intros y [<-|[]]; exists x; split; [exact IU|apply version_self]).
      assert (PV' : proper_values cs (D a ++ [x])) by (apply proper_app; [exact (kp_proper _ _ KP a LA)|]; intros y c f [<-|[]]; now apply (rl_proper _ _ _ _ RL)).
      pose proof (add_dataset fuel cs tops U RL (D a) (kp_set _ _ KP a LA) x IU NEW PAR) as DS'.
      destruct (either a LA) as [AL|(i & AR)].
      + destruct (kadd fuel cs tops U RL F2 w a (D a) (kp_data _ _ KP a AL) (kp_set _ _ KP a LA) (kp_of _ _ KP a LA) x (set_ad_store ad s) WA EC IU NEW PAR) as (w' & E & ED). exists w'. split; [exact E|]. exact (local_edit D w KP a _ w' OF' PV' DS' AL ED).
      + pose proof AR as (ad' & A' & B). assert (ad' = ad) by congruence. subst ad'.
        destruct (sadd fuel cs tops U RL w a ad i (D a) (kp_redis _ _ KP a ad i A B) B EC (redis_plain a i AR) (va_types _ _ _ _ VA) (kp_once _ _ KP) (kp_shelf _ _ KP a i AR) (kp_set _ _ KP a LA) (kp_of _ _ KP a LA) x IU NEW PAR) as (w' & E & BE & OS).
        exists w'. split; [exact E|]. exact (shelf_edit D w KP a _ w' OF' PV' DS' i AR BE OS).
    - destruct CD as (LA & VV & x0 & c0 & I0 & K0 & C0 & AT). pose proof (kp_of _ _ KP a LA) as OF. pose proof (kp_set _ _ KP a LA) as DS. pose proof (kp_proper _ _ KP a LA) as PV.
      assert (OF' : of_realm cs U (set_row cs k f v (D a))) by (rewrite set_row_eq; exact (nr_of cs U (D a) k f v x0 c0 OF K0 C0 AT)).
      assert (PV' : proper_values cs (set_row cs k f v (D a))) by (rewrite set_row_eq; exact (nr_proper cs (D a) k f v PV VV)).
      assert (DS' : dataset cs tops (set_row cs k f v (D a))) by (rewrite set_row_eq; exact (nr_dataset fuel cs tops U RL (D a) k f v x0 c0 DS OF K0 C0 AT)).
      destruct (either a LA) as [AL|(i & AR)].
      + destruct (kassign fuel cs tops U RL w a (D a) (kp_data _ _ KP a AL) DS OF k f v x0 c0 I0 K0 C0 AT VV) as (w' & E & ED). exists w'. split; [exact E|]. exact (local_edit D w KP a _ w' OF' PV' DS' AL ED).
      + pose proof AR as (ad & A & B).
        destruct (sassign fuel cs tops U RL F2 w a ad i (D a) (kp_redis _ _ KP a ad i A B) B (redis_plain a i AR) (va_types _ _ _ _ VA) (kp_once _ _ KP) (kp_shelf _ _ KP a i AR) DS OF k f v x0 c0 I0 K0 C0 AT) as (w' & E & BE & OS).
        exists w'. split; [exact E|]. exact (shelf_edit D w KP a _ w' OF' PV' DS' i AR BE OS).
    - destruct CD as (LA & x0 & I0 & K0 & P0). pose proof (kp_of _ _ KP a LA) as OF. pose proof (kp_set _ _ KP a LA) as DS. pose proof (kp_proper _ _ KP a LA) as PV. subst k.
      pose proof (proj2 (cut_nodup cs (D a) [row_key cs x0] (da_keys _ _ _ DS))) as IC.
      pose proof (of_sub cs U _ _ IC OF) as OF'. pose proof (proper_sub cs _ _ IC PV) as PV'. pose proof (cut_dataset cs tops (D a) (row_key cs x0) DS) as DS'.
      destruct (either a LA) as [AL|(i & AR)].
      + destruct (kdrop fuel cs tops U RL F2 w a (D a) (kp_data _ _ KP a AL) DS OF p x0 I0 P0) as (w' & E & ED). exists w'. split; [exact E|]. exact (local_edit D w KP a _ w' OF' PV' DS' AL ED).
      + pose proof AR as (ad & A & B).
        destruct (sdrop fuel cs tops U RL F2 w a ad i (D a) (kp_redis _ _ KP a ad i A B) B (redis_plain a i AR) (va_types _ _ _ _ VA) (kp_once _ _ KP) (kp_shelf _ _ KP a i AR) DS OF p x0 I0 P0) as (w' & E & BE & OS).
        exists w'. split; [exact E|]. exact (shelf_edit D w KP a _ w' OF' PV' DS' i AR BE OS).
    - destruct CD as (NE & LS & (da & DA & SP) & HK & YO). destruct CL as (da' & d' & DA' & SL). destruct (at_ad ads _ LS) as (sa & SA). assert (AL : at_local (sy_dst c)) by (exists da', d'; auto).
      destruct (sync_kept D w KP (sy_src c) (sy_dst c) sa da NE SA DA AL (sy_hooks c) (sy_class c) (sy_flags c) (sy_cb c) HK SP YO) as (w' & d & E & KP'). exists w'. split; [unfold bind; now rewrite E|exact KP'].
  Qed.
  Lemma changes_kept l : forall D w, kept D w -> can_keep_all cs U ads D l -> exists w', keep_changes fuel l w = (w', Ok tt) /\ kept (fold_left (keep_rows cs ads) l D) w'.
  Proof.
    induction l as [|ch l IH]; intros D w KP CD; [exists w; now split|]. destruct CD as (C1 & C2). destruct (change_kept D w ch KP C1) as (w1 & E & P1).
    destruct (IH _ w1 P1 C2) as (w2 & E2 & P2). exists w2. split; [cbn [keep_changes]; unfold bind; now rewrite E|exact P2].
  Qed.
  Lemma empty_kept : kept (fun _ => []) w0.
  Proof.
    assert (LO : forall a, at_local a -> exists ad, nth_error ads a = Some ad /\ ad_store ad = SLocal []).
    { intros a (ad & d & A & B). exists ad. split; [exact A|]. pose proof (nth_error_In _ _ A) as I. destruct (va_ads _ _ _ _ VA ad I) as (_ & _ & X). rewrite B in X. now rewrite B, X. }
    assert (LL : forall a, at_local a -> local_ok w0 a).
    { intros a LA. destruct (LO a LA) as (ad & A & S). exists ad, []. split; [exact A|]. split; [exact S|]. split; [constructor|intros m b []]. }
    assert (NL : forall a t u, at_local a -> lookup w0 a t u = None).
    { intros a t u LA. destruct (LO a LA) as (ad & A & S). unfold lookup. now rewrite A, S. }
    split.
    - intros b bd d m bb u r A S I1 I2. pose proof (nth_error_In _ _ A) as I. destruct (va_ads _ _ _ _ VA bd I) as (_ & _ & X). rewrite S in X. subst d. destruct I1.
    - intros a ad A. exists (ad_store ad). rewrite A. now destruct ad.
    - auto.
    - intros a b LA LB _. apply share_local; auto. intros t u r L. rewrite NL in L by exact LA. discriminate.
    - intros a LA x [].
    - intros a LA x c f [].
    - intros a LA. split; [intros x []|constructor|]. intros [|y l] x m E; discriminate.
    - intros a LA. split; [now apply LL|intros x []|]. intros k N. elim N. now apply NL.
    - intros a i (ad & A & B). split; [intros x []|]. intros s N. pose proof (nth_error_In _ _ A) as I. destruct (va_ads _ _ _ _ VA ad I) as (_ & _ & X). rewrite B in X. elim N. apply X.
    - reflexivity.
    - apply VA.
    - reflexivity.
  Qed.
  Lemma kept_stocks D w a ad : kept D w -> nth_error ads a = Some ad -> stocks w a ad cs (D a).
  Proof.
    intros KP A. assert (LA : a < length ads) by (apply nth_error_Some; congruence). unfold stocks. destruct (ad_store ad) as [d|i] eqn:S.
    - assert (AL : at_local a) by (exists ad, d; auto). exact (ca_has_data w a cs (D a) tops (kp_data _ _ KP a AL) (kp_set _ _ KP a LA) (kp_proper _ _ KP a LA)).
    - apply (kp_shelf _ _ KP a i). exists ad. auto.
  Qed.
End Group.
