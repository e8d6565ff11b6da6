(** * ServeRead: a RedisStore filled from records is compared like a LocalStore. *)
From Verif Require Export ShelfEnd DataFacts.
From Verif Require Import DataOrder DifferMore.
From Coq Require Import Ascii String List.
Import ListNotations.
Open Scope string_scope.
Open Scope list_scope.

(** ** Comparing depends on what is read *)
Lemma rrel_same T r : (forall l, r = Ok l -> Forall (typed T) l) -> rrel (Forall2 (agreesT T)) r r.
Proof.
  intros H. destruct r as [l|e]; [|reflexivity]. specialize (H l eq_refl). simpl.
  induction H as [|o l P F IH]; constructor; auto. split; [apply agrees_refl|exact P].
Qed.
Lemma pdiff_reads w w' n flags src dst sa da sa' da' :
  (forall t, plain t = true -> rrel (Forall2 (agreesT plainT)) (objs_all w src t) (objs_all w' src t)) ->
  (forall us t, plain t = true -> rrel (Forall2 (agreesT plainT)) (objs_by w src us t) (objs_by w' src us t)) ->
  (forall t, plain t = true -> rrel (Forall2 (agreesT plainT)) (objs_all w dst t) (objs_all w' dst t)) ->
  (forall us t, plain t = true -> rrel (Forall2 (agreesT plainT)) (objs_by w dst us t) (objs_by w' dst us t)) ->
  ad_name sa' = ad_name sa -> ad_top sa' = ad_top sa -> ad_name da' = ad_name da -> ad_top da' = ad_top da ->
  (forall t, In t (ad_top sa) \/ In t (ad_top da) -> plain t = true) ->
  pdiff n flags w src dst sa da = pdiff n flags w' src dst sa' da'.
Proof.
  intros SA SB DA DB N1 T1 N2 T2 PT. unfold pdiff, pcalc. rewrite N1, T1, N2, T2. apply wbind_ext.
  - apply wforM_ext_in. intros t _.
    assert (X : forall r r', rrel (Forall2 (agreesT plainT)) r r' -> wbind (wlift r) (fun l => wtick (length l)) = wbind (wlift r') (fun l => wtick (length l))).
    { intros [l|e] [l'|e'] R; try contradiction; simpl in R.
      - now rewrite !wbind_lift_Ok, (Forall2_length' _ _ _ R).
      - now subst. }
    destruct (smem t (ad_top da)) eqn:M; [apply X, DA, PT; right; now apply smem_In|].
    destruct (smem t (ad_top sa)) eqn:M'; [apply X, SA, PT; left; now apply smem_In|reflexivity].
  - intros _ _. generalize (@nil (string * dict elem)) as gs.
    assert (IT : forall t, In t (intersection (ad_top da) (ad_top sa)) -> plain t = true) by (intros t I; apply In_inter in I as [I _]; auto).
    induction (intersection (ad_top da) (ad_top sa)) as [|t l IH]; intros gs; [reflexivity|].
    cbn [ptypes]. assert (P : plain t = true) by (apply IT; now left).
    pose proof (SA t P) as R1. pose proof (DA t P) as R2.
    destruct (objs_all w src t) as [ss|], (objs_all w' src t) as [ss'|]; try contradiction; [|simpl in R1; subst; now rewrite !wbind_lift_Err].
    destruct (objs_all w dst t) as [dd|], (objs_all w' dst t) as [dd'|]; try contradiction; [|simpl in R2; subst; now rewrite !wbind_lift_Ok, !wbind_lift_Err].
    rewrite !wbind_lift_Ok. apply wbind_ext.
    + apply (plist_relT plainT); auto.
    + intros es _. apply wbind_ext; [reflexivity|]. intros gs' _. apply IH. intros x I. apply IT. now right.
Qed.

(** ** Worlds in which an adapter reads the same *)
Section Same.
  Variables (w w' : world) (a : aid).
  Hypothesis HA : forall t, objs_all w' a t = objs_all w a t.
  Hypothesis HB : forall us t, objs_by w' a us t = objs_by w a us t.
  Lemma same_read o : read w' a o <-> read w a o.
  Proof. unfold read. split; intros (t & l & I & [E|(us & E)]); exists t, l; (split; [exact I|]); rewrite ?HA, ?HB in *; eauto; right; exists us; rewrite ?HB in *; auto. Qed.
  Lemma same_asked tops t : asked w' a tops t <-> asked w a tops t.
  Proof. unfold asked. split; (intros [I|(o & f & R & I)]; [now left|right; exists o, f; split; [now apply same_read|exact I]]). Qed.
  Lemma same_shows la tops rows : shows w a la tops rows -> shows w' a la tops rows.
  Proof.
    intros [A B C (D1 & D2) E F G]. split.
    - intros o R. apply A. now apply same_read.
    - intros x I. destruct (B x I) as (o & R & M). exists o. split; [now apply same_read|exact M].
    - intros o o' x R R'. apply C; now apply same_read.
    - split; [intros t l o K Q|intros us t l o K Q]; apply same_asked in K; rewrite ?HA, ?HB in Q; eauto.
    - intros us t l K Q. apply same_asked in K. rewrite HB in Q. eauto.
    - intros t I. rewrite HA. auto.
    - intros t us I. rewrite HB. auto.
  Qed.
End Same.

(** a LocalStore filled from records shows them *)
Lemma stands_shows w a ad n rows tops : stands w a ad n rows -> dataset (ad_classes ad) tops rows -> shows w a ad tops rows.
Proof.
  intros ST DS. pose proof (st_forest w a ad n rows tops ST DS) as FO. split.
  - exact (st_read w a ad n rows ST).
  - exact (st_object w a ad n rows tops ST DS).
  - intros o o' x R R' I M M'. apply (fo_single _ _ _ FO o o' (row_key (ad_classes ad) x)); auto; now apply (st_is ad rows tops DS).
  - exact (fo_filed _ _ _ FO).
  - exact (fo_ids _ _ _ FO).
  - intros t It. destruct (st_local w a ad n rows ST) as (ad' & d & A & B & N1 & N2).
    assert (X : forall rs, (forall r, In r rs -> exists u, In (u, r) (bucket d t)) -> exists os, Forall2 (fun r o => nth_error (w_heap w) r = Some o) rs os).
    { induction rs as [|r rs IHr]; intros HR; [exists []; constructor|]. destruct IHr as (os & F); [intros r' Ir; apply HR; now right|]. destruct (HR r) as (u & Iu); [now left|].
      assert (Lu : lookup w a t u = Some r).
      { unfold lookup. rewrite A, B. apply In_dget; [|exact Iu]. unfold bucket in *. destruct (dget d t) as [b|] eqn:G; [|destruct Iu]. apply (N2 t). now apply dget_Some_In. }
      destruct (st_lookup w a ad n rows ST _ _ _ Lu) as (_ & _ & o' & _ & _ & _ & H' & _). exists (o' :: os). constructor; auto. }
    destruct (X (dvals (bucket d t))) as (os & F); [intros r Ir; unfold dvals in Ir; apply in_map_iff in Ir as ([u r'] & <- & Ir); eauto|].
    exists os. split; [apply (local_all w a t os ad' d A B); exact F|]. intros x I ET. destruct (st_row w a ad n rows ST x I) as (j & o & _ & L & H & _ & M). exists o. split; [|exact M].
    unfold lookup in L. rewrite A, B in L. cbn [row_key fst] in L. rewrite ET in L. apply dget_Some_In in L.
    assert (Ir : In (n + j) (dvals (bucket d t))) by (apply in_map_iff; eexists; split; [|exact L]; reflexivity). destruct (Forall2_in_l _ _ _ _ F Ir) as (o' & Io & Ho). congruence.
  - exact (st_by w a ad n rows ST).
Qed.

(** ** The LocalStore with the same contents *)
Fixpoint index_of (k : string) (l : list string) : nat :=
  match l with [] => 0 | x :: l' => if String.eqb k x then 0 else S (index_of k l') end.
Lemma index_In k l : In k l -> nth_error l (index_of k l) = Some k.
Proof.
  induction l as [|x l IH]; intros I; [destruct I|]. cbn [index_of]. destruct (String.eqb_spec k x) as [->|N]; [reflexivity|].
  destruct I as [->|I]; [congruence|]. now apply IH.
Qed.
Lemma index_nth l : NoDup l -> forall j k, nth_error l j = Some k -> index_of k l = j.
Proof.
  induction 1 as [|x l N ND IH]; intros j k E; [destruct j; discriminate|]. cbn [index_of]. destruct j as [|j]; cbn [nth_error] in E.
  - injection E as ->. now rewrite String.eqb_refl.
  - destruct (String.eqb_spec k x) as [->|_]; [elim N; eapply nth_error_In; eauto|]. f_equal. now apply IH.
Qed.
Definition no_obj : obj := mkObj (mkCls "" [] [] [] [] [] [] 0) [] [] 0 None StSuccess "".

Section Mirror.
  Variables (w0 w : world) (a : aid) (ad : adapter) (i : string) (rows : list row).
  Notation cs := (ad_classes ad).
  Notation K := (row_key cs).
  Notation tops := (ad_top ad).
  Definition kof (x : row) : string := redis_key i (fst (K x)) (snd (K x)).
  Hypothesis OK : w_ok w.
  Hypothesis HA : nth_error (w_ads w) a = Some ad.
  Hypothesis HS : ad_store ad = SRedis i.
  Hypothesis PI : plain i = true.
  Hypothesis PT : forall x, In x rows -> plain (r_type x) = true.
  Hypothesis NONE : forall s, dget (w_redis w0) ("diffsync:" ++ i ++ ":" ++ s)%string = None.
  Hypothesis SV : shelved w0 i cs rows rows w.
  Hypothesis DS : dataset cs tops rows.

  Definition n0 : nat := length (w_heap w).
  Definition rkeys : list string := map kof rows.
  Definition held (k : string) : obj := match dget (w_redis w) k with Some o => set_o_adapter o (Some a) | None => no_obj end.
  Definition entry_of (k : string) : string * ref :=
    (match nth_error rows (index_of k rkeys) with Some x => snd (K x) | None => "" end, n0 + index_of k rkeys).
  Definition scan_of (t : string) : list string := filter (glob (store_label i ++ ":" ++ t ++ ":*")%string) (dkeys (w_redis w)).
  Definition shelf_of (t : string) : dict ref := map entry_of (scan_of t).
  Definition mstore : dict (dict ref) := map (fun t => (t, shelf_of t)) (nodup string_dec (map r_type rows)).
  Definition mad : adapter := set_ad_store ad (SLocal mstore).
  Definition mirror : world := mkWorld (w_heap w ++ map held rkeys) (list_set (w_ads w) a mad) (w_redis w) (w_trace w).

  Lemma kof_inj x y : In x rows -> In y rows -> kof x = kof y -> x = y.
  Proof.
    intros I J E. apply key_inj in E as (_ & E1 & E2); auto; [|now apply PT|now apply PT].
    apply (key_fun ad rows tops DS); auto. now apply injective_projections.
  Qed.
  Lemma rkeys_NoDup : NoDup rkeys.
  Proof.
    pose proof (da_keys _ _ _ DS) as ND. apply NoDup_map_inv in ND. unfold rkeys. pose proof kof_inj as KI. revert ND KI. generalize kof. clear. intros f.
    induction rows as [|x l IH]; intros ND KI; [constructor|]. inversion ND as [|? ? N ND']; subst. cbn [map]. constructor; [|apply IH; auto; intros y z I J; apply KI; now right].
    intros I. apply in_map_iff in I as (y & E & I). apply N. rewrite (KI x y); auto; [now left|now right].
  Qed.
  Lemma index_row j x : nth_error rows j = Some x -> index_of (kof x) rkeys = j.
  Proof. intros E. apply index_nth; [exact rkeys_NoDup|]. unfold rkeys. rewrite nth_error_map, E. reflexivity. Qed.
  Lemma entry_row j x : nth_error rows j = Some x -> entry_of (kof x) = (snd (K x), n0 + j).
  Proof. intros E. unfold entry_of. now rewrite (index_row j x E), E. Qed.
  (** what SCAN finds *)
  Lemma scan_row t k : plain t = true -> In k (scan_of t) <-> exists x, In x rows /\ r_type x = t /\ k = kof x.
  Proof.
    intros P. unfold scan_of. rewrite filter_In. split.
    - intros (I & G). destruct (dget (w_redis w) k) as [o|] eqn:E; [|apply dget_None in E; contradiction].
      destruct (glob_starts (store_label i ++ ":") (t ++ ":*")) with (s := k) as (r & ->).
      { unfold store_label. rewrite !literal_app, (plain_literal i PI). reflexivity. } { rewrite append_assoc. exact G. }
      unfold store_label in E. rewrite !append_assoc in E. destruct (own_key w0 w ad i rows NONE SV r o E) as (x & J & EK).
      exists x. split; [exact J|]. assert (EK' : kof x = ((store_label i ++ ":") ++ r)%string) by (unfold kof, store_label; rewrite !append_assoc; exact EK).
      split; [|now symmetry]. rewrite <- EK' in G. unfold kof in G. rewrite match_type in G; auto; [|now apply PT]. apply andb_true_iff in G as (_ & G). apply String.eqb_eq in G. cbn [row_key fst] in G. congruence.
    - intros (x & I & T & ->). destruct (proj1 SV x I) as (o & S1 & _). split.
      + change (dget (w_redis w) (kof x) = Some o) in S1. apply dget_Some_In in S1. unfold dkeys. apply in_map_iff. eexists. split; [|exact S1]. reflexivity.
      + unfold kof. rewrite match_type; auto; [|now apply PT]. cbn [row_key fst]. now rewrite T, !String.eqb_refl.
  Qed.
  Lemma scan_NoDup t : NoDup (scan_of t).
  Proof. apply NoDup_filter. exact (proj2 (proj2 SV)). Qed.
  Lemma shelf_keys t : plain t = true -> map (redis_key i t) (dkeys (shelf_of t)) = scan_of t.
  Proof.
    intros P. unfold dkeys, shelf_of. rewrite !map_map. rewrite <- (map_id (scan_of t)) at 2. apply map_ext_in. intros k I.
    apply (scan_row t k P) in I as (x & J & T & ->). apply In_nth_error in J as (j & E). rewrite (entry_row j x E). cbn [fst]. unfold kof. cbn [row_key fst]. now rewrite T.
  Qed.
  Lemma shelf_NoDup t : plain t = true -> NoDup (dkeys (shelf_of t)).
  Proof. intros P. apply (NoDup_map_inv (redis_key i t)). rewrite (shelf_keys t P). apply scan_NoDup. Qed.
  Lemma shelf_In t u r : plain t = true -> In (u, r) (shelf_of t) <-> exists j y, nth_error rows j = Some y /\ K y = (t, u) /\ r = n0 + j.
  Proof.
    intros P. unfold shelf_of. rewrite in_map_iff. split.
    - intros (k & E & I). apply (scan_row t k P) in I as (x & J & T & ->). apply In_nth_error in J as (j & EJ). rewrite (entry_row j x EJ) in E. injection E as <- <-.
      exists j, x. split; [exact EJ|]. split; [|reflexivity]. apply injective_projections; [exact T|reflexivity].
    - intros (j & y & E & EK & ->). exists (kof y). split; [rewrite (entry_row j y E), EK; reflexivity|]. apply (scan_row t _ P). exists y. split; [eapply nth_error_In; eauto|]. split; [|reflexivity].
      change (r_type y) with (fst (K y)). now rewrite EK.
  Qed.
  Lemma mtypes t b : In (t, b) mstore -> plain t = true /\ b = shelf_of t.
  Proof.
    unfold mstore. intros I. apply in_map_iff in I as (t' & E & I). injection E as -> <-. split; [|reflexivity]. apply nodup_In in I. apply in_map_iff in I as (x & <- & I). now apply PT.
  Qed.
  Lemma mstore_NoDup : NoDup (dkeys mstore).
  Proof. unfold dkeys, mstore. rewrite map_map. cbn [fst]. rewrite map_id. apply NoDup_nodup. Qed.
  Lemma mbucket t : bucket mstore t = if in_dec string_dec t (map r_type rows) then shelf_of t else [].
  Proof.
    unfold bucket. destruct (in_dec string_dec t (map r_type rows)) as [I|N].
    - rewrite (In_dget mstore t (shelf_of t) mstore_NoDup); [reflexivity|]. unfold mstore. apply in_map_iff. exists t. split; [reflexivity|]. now apply nodup_In.
    - destruct (dget mstore t) as [b|] eqn:G; [|reflexivity]. exfalso. apply N. apply dget_Some_In in G. unfold mstore in G. apply in_map_iff in G as (t' & E & J). injection E as -> _. now apply nodup_In in J.
  Qed.
  Lemma mbucket_plain t : plain t = true -> bucket mstore t = shelf_of t.
  Proof.
    intros P. rewrite mbucket. destruct (in_dec string_dec t (map r_type rows)) as [I|N]; [reflexivity|]. unfold shelf_of.
    destruct (scan_of t) as [|k ks] eqn:E; [reflexivity|]. exfalso. apply N. assert (I : In k (scan_of t)) by (rewrite E; now left). apply (scan_row t k P) in I as (x & J & <- & _). now apply in_map.
  Qed.
  Lemma mirror_ad : nth_error (w_ads mirror) a = Some mad.
  Proof. eapply nth_list_set_eq; eauto. Qed.
  Lemma mheap j x : nth_error rows j = Some x -> nth_error (w_heap mirror) (n0 + j) = Some (held (kof x)).
  Proof.
    intros E. cbn [mirror w_heap]. unfold n0. rewrite nth_error_app2 by lia. replace (length (w_heap w) + j - length (w_heap w)) with j by lia.
    unfold rkeys. now rewrite map_map, nth_error_map, E.
  Qed.
  Lemma held_row x : In x rows -> exists o1, dget (w_redis w) (kof x) = Some o1 /\ held (kof x) = set_o_adapter o1 (Some a) /\ made_from cs rows x (held (kof x)).
  Proof.
    intros I. destruct (row_snap w0 w a ad i rows SV x I) as (o & o1 & G & E & M). exists o1. change (dget (w_redis w) (kof x) = Some o1) in G. split; [exact G|].
    unfold held. rewrite G. split; [reflexivity|]. now rewrite <- E.
  Qed.

  Lemma mirror_stands : stands mirror a mad n0 rows.
  Proof.
    exists mstore. split; [exact mirror_ad|]. split; [reflexivity|]. split; [cbn [mirror w_heap]; unfold n0, rkeys; rewrite app_length, !map_length; lia|].
    split; [exact mstore_NoDup|]. split; [intros m b I; apply mtypes in I as (P & ->); now apply shelf_NoDup|]. cbn [mad set_ad_store ad_classes]. split.
    - intros j y E. pose proof (nth_error_In _ _ E) as J. assert (P : plain (fst (K y)) = true) by exact (PT y J). rewrite (mbucket_plain _ P). split.
      + apply In_dget; [now apply shelf_NoDup|]. apply (shelf_In _ _ _ P). exists j, y. split; [exact E|]. split; [now destruct (K y)|reflexivity].
      + destruct (held_row y J) as (o1 & _ & EH & M). exists (held (kof y)). split; [now apply mheap|]. split; [now rewrite EH|exact M].
    - intros t u r G. rewrite mbucket in G. destruct (in_dec string_dec t (map r_type rows)) as [I|N]; [|discriminate]. assert (P : plain t = true) by (apply in_map_iff in I as (x & <- & I); now apply PT).
      apply dget_Some_In in G. apply (shelf_In t u r P) in G as (j & y & E & EK & _). eauto.
  Qed.
  Lemma mirror_ok : w_ok mirror.
  Proof.
    intros b adb db m bk u r A B Im Iu. cbn [mirror w_ads] in A. rewrite nth_list_set in A. assert (LE : length (w_heap w) <= length (w_heap mirror)) by (cbn [mirror w_heap]; rewrite app_length; lia).
    destruct (Nat.eqb_spec b a) as [->|NE].
    - destruct (Nat.ltb a (length (w_ads w))); [|discriminate]. injection A as <-. cbn [mad set_ad_store ad_store] in B. injection B as <-. apply mtypes in Im as (P & ->).
      apply (shelf_In m u r P) in Iu as (j & y & E & _ & ->). apply nth_error_Some. rewrite (mheap j y E). discriminate.
    - pose proof (OK b adb db m bk u r A B Im Iu). lia.
  Qed.
  (** reading the mirror *)
  Lemma rmapM_map {A B C} (f : B -> result C) (g : A -> B) l : rmapM f (map g l) = rmapM (fun x => f (g x)) l.
  Proof. induction l as [|x l IH]; [reflexivity|]. cbn [map rmapM]. now rewrite IH. Qed.
  Lemma rmapM_in {A B} (f g : A -> result B) l : (forall x, In x l -> f x = g x) -> rmapM f l = rmapM g l.
  Proof. induction l as [|x l IH]; intros H; [reflexivity|]. cbn [rmapM]. rewrite (H x), IH; auto; [intros y I; apply H; now right|now left]. Qed.
  Lemma mirror_all t : plain t = true -> objs_all mirror a t = objs_all w a t.
  Proof.
    intros P. unfold objs_all. rewrite mirror_ad, HA, HS. cbn [mad set_ad_store ad_store]. rewrite (mbucket_plain t P). unfold deref, dvals, shelf_of. rewrite map_map, rmapM_map.
    apply rmapM_in. intros k I. apply (scan_row t k P) in I as (x & J & _ & ->). destruct (held_row x J) as (o1 & G & EH & _). rewrite G. apply In_nth_error in J as (j & E).
    rewrite (entry_row j x E). cbn [snd]. now rewrite (mheap j x E), EH.
  Qed.
  Lemma mirror_by us t : plain t = true -> objs_by mirror a us t = objs_by w a us t.
  Proof.
    intros P. unfold objs_by. destruct us as [|u us]; [reflexivity|]. generalize (u :: us). clear u us. intros us. rewrite mirror_ad, HA, HS. cbn [mad set_ad_store ad_store]. rewrite (mbucket_plain t P).
    induction us as [|u us IH]; [reflexivity|]. cbn [rmapM]. rewrite <- IH. destruct (dget (shelf_of t) u) as [r|] eqn:G.
    - apply dget_Some_In in G. apply (shelf_In t u r P) in G as (j & y & E & EK & ->). pose proof (nth_error_In _ _ E) as J. destruct (held_row y J) as (o1 & G1 & EH & _).
      unfold kof in G1. rewrite EK in G1. cbn [fst snd] in G1. rewrite G1. cbn [rbind].
      destruct (rmapM _ us) as [rs|e]; cbn [rbind].
      + unfold deref. cbn [rmapM]. rewrite (mheap j y E), EH. reflexivity.
      + reflexivity.
    - destruct (dget (w_redis w) (redis_key i t u)) as [o|] eqn:G1; [|reflexivity]. exfalso. destruct (by_one w0 w a ad i rows NONE SV t u o G1) as (x & J & EK & _).
      cbv beta in EK. apply key_inj in EK as (_ & E1 & E2); auto; [|now apply PT]. apply In_nth_error in J as (j & E). apply dget_None in G. apply G. unfold dkeys. apply in_map_iff. exists (u, n0 + j). split; [reflexivity|].
      apply (shelf_In t u _ P). exists j, x. split; [exact E|]. split; [now apply injective_projections|reflexivity].
  Qed.
  (** other adapters *)
  Lemma mirror_other_all b t : b <> a -> objs_all mirror b t = objs_all w b t.
  Proof.
    intros NE. unfold objs_all. cbn [mirror w_ads w_redis]. rewrite nth_list_set_neq by auto. destruct (nth_error (w_ads w) b) as [adb|] eqn:E; [|reflexivity].
    destruct (ad_store adb) as [db|j] eqn:ES; [|reflexivity]. eapply deref_app; [reflexivity|]. eapply w_ok_bucket; eauto.
  Qed.
  Lemma mirror_other_by b us t : b <> a -> objs_by mirror b us t = objs_by w b us t.
  Proof.
    intros NE. unfold objs_by. destruct us as [|u us]; [reflexivity|]. cbn [mirror w_ads w_redis]. rewrite nth_list_set_neq by auto. destruct (nth_error (w_ads w) b) as [adb|] eqn:E; [|reflexivity].
    destruct (ad_store adb) as [db|j] eqn:ES; [|reflexivity]. destruct (rmapM _ (u :: us)) as [rs|e] eqn:Y; [|reflexivity]. cbn [rbind]. eapply deref_app; [reflexivity|].
    pose proof (w_ok_bucket _ _ _ _ t OK E ES) as B. apply Forall_forall. intros r I. rewrite Forall_forall in B. apply B. now apply (rmapM_bucket_ok _ _ _ _ Y).
  Qed.
  Lemma mirror_shares b adb : b <> a -> nth_error (w_ads w) b = Some adb -> share_nothing mirror b a.
  Proof.
    intros NE HB. split.
    - intros r (ad1 & d1 & t & u & (A1 & B1) & I1) (ad2 & d2 & t2 & u2 & (A2 & B2) & I2). cbn [mirror w_ads] in A1. rewrite nth_list_set_neq in A1 by auto.
      assert (r < n0). { unfold bucket in I1. destruct (dget d1 t) as [bk|] eqn:G; [|destruct I1]. apply dget_Some_In in G. exact (OK b ad1 d1 t bk u r A1 B1 G I1). }
      rewrite mirror_ad in A2. injection A2 as <-. cbn [mad set_ad_store ad_store] in B2. injection B2 as <-. rewrite mbucket in I2. destruct (in_dec string_dec t2 (map r_type rows)) as [I|N]; [|destruct I2].
      assert (P : plain t2 = true) by (apply in_map_iff in I as (x & <- & I); now apply PT). apply (shelf_In t2 u2 r P) in I2 as (j & y & _ & _ & ->). lia.
    - intros x y _ (ad' & A' & B'). rewrite mirror_ad in A'. injection A' as <-. discriminate.
  Qed.
  (** the server has what the mirror has *)
  Lemma mirror_look k : plain (fst k) = true ->
    match lookup mirror a (fst k) (snd k) with
    | None => on_server w i (fst k) (snd k) = None
    | Some r => exists x j o1, In x rows /\ K x = k /\ r = n0 + j /\ nth_error rows j = Some x /\ nth_error (w_heap mirror) r = Some (set_o_adapter o1 (Some a)) /\
        on_server w i (fst k) (snd k) = Some o1 /\ made_from cs rows x o1
    end.
  Proof.
    intros P. unfold lookup. rewrite mirror_ad. cbn [mad set_ad_store ad_store]. rewrite (mbucket_plain _ P). destruct (dget (shelf_of (fst k)) (snd k)) as [r|] eqn:G.
    - apply dget_Some_In in G. apply (shelf_In _ _ _ P) in G as (j & y & E & EK & ->). rewrite <- surjective_pairing in EK. pose proof (nth_error_In _ _ E) as J. destruct (held_row y J) as (o1 & G1 & EH & M).
      exists y, j, o1. split; [exact J|]. split; [exact EK|]. split; [reflexivity|]. split; [exact E|]. split; [now rewrite (mheap j y E), EH|]. unfold kof in G1. rewrite EK in G1. split; [exact G1|].
      destruct (proj1 SV y J) as (o2 & S2 & _ & M2). rewrite EK in S2. unfold on_server in S2. assert (o2 = o1) by congruence. now subst o2.
    - unfold on_server. destruct (dget (w_redis w) (redis_key i (fst k) (snd k))) as [o|] eqn:G1; [|reflexivity]. exfalso. destruct (by_one w0 w a ad i rows NONE SV _ _ o G1) as (x & J & EK & _).
      cbv beta in EK. apply key_inj in EK as (_ & E1 & E2); auto; [|now apply PT]. apply In_nth_error in J as (j & E). apply dget_None in G. apply G. unfold dkeys. apply in_map_iff. exists (snd k, n0 + j). split; [reflexivity|].
      apply (shelf_In _ _ _ P). exists j, x. split; [exact E|]. split; [now apply injective_projections|reflexivity].
  Qed.
End Mirror.
