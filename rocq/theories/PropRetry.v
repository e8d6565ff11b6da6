(** * PropRetry: synchronisations that are repeated after failures (C73).

    [tried], [children_deletable], [hooks_honest] and [deletes_succeed] are defined in FailSpec.v, [alike] and
    [comparable] in ConvergeSpec.v. *)
From Verif Require Import FailAlike ConvCascade.

(** C73.  Whatever create and update hooks fail, and wherever that breaks off the synchronisation: the adapters can be
    synchronised again. *)
Theorem C73_again : forall fuel h dst src dcd dc flags fl cbd cb given w d sa da,
  alike w fuel src dst sa da -> comparable w fuel src dst sa da -> children_deletable w dst da -> hooks_honest h -> deletes_succeed h ->
  snd (diff_from fuel dst src dcd flags cbd w) = Ok d -> yields_once (dc_order (d_class d)) -> uses fuel dst src dc fl cb given w d ->
  exists s s', let w' := fst (sync_from fuel h dst src dc fl cb given w) in let sa' := set_ad_store sa s in let da' := set_ad_store da s' in
    alike w' fuel src dst sa' da' /\ comparable w' fuel src dst sa' da' /\ children_deletable w' dst da'.
Proof. exact alike_again. Qed.
Print Assumptions C73_again.

Lemma tried_alike fuel src dst w w' : tried fuel src dst w w' -> forall sa da,
  alike w fuel src dst sa da -> comparable w fuel src dst sa da -> children_deletable w dst da ->
  exists s s', let sa' := set_ad_store sa s in let da' := set_ad_store da s' in
    alike w' fuel src dst sa' da' /\ comparable w' fuel src dst sa' da' /\ children_deletable w' dst da'.
Proof.
  induction 1 as [w|w dcd flags cbd d h dc fl cb given w' HH HD DF YO US T IH]; intros sa da AL CM CD.
  - exists (ad_store sa), (ad_store da). cbv zeta. rewrite !set_ad_same. auto.
  - destruct (alike_again fuel h dst src dcd dc flags fl cbd cb given w d sa da AL CM CD HH HD DF YO US) as (s & s' & A & B & C).
    destruct (IH _ _ A B C) as (s1 & s1' & R). exists s1, s1'. exact R.
Qed.
(** After any number of synchronisations with such failures, one whose hooks succeed returns, and then the adapters
    agree. *)
Theorem C73_retry : forall fuel h dst src dc flags cb w w1 sa da,
  alike w fuel src dst sa da -> comparable w fuel src dst sa da -> children_deletable w dst da -> tried fuel src dst w w1 ->
  hooks_succeed h -> spares_attributes da h -> yields_once (dc_order dc) ->
  exists w' d, sync_from fuel h dst src dc flags cb None w1 = (w', Ok d) /\
    forall dc' cb', exists d', snd (diff_from fuel dst src dc' flags cb' w') = Ok d' /\
      diff_has_diffs d' = false /\ forall x, occurs x (d_groups d') -> e_action x = None.
Proof.
  intros fuel h dst src dc flags cb w w1 sa da AL CM CD T HK SP YO. destruct (tried_alike _ _ _ _ _ T sa da AL CM CD) as (s & s' & A & B & _).
  destruct (converges_all fuel h dst src dc flags cb w1 _ _ A B HK SP YO) as (w' & d & E & H).
  exists w', d. split; [exact E|]. intros dc' cb'. destruct (H dc' cb') as (d' & D & N). exists d'. split; [exact D|]. split; [now apply has_diffs_none|exact N].
Qed.
Print Assumptions C73_retry.

(** Not so without [children_deletable], even if all hooks succeed: here lon goes, and its child r9 stays because of its
    flags (IGNORE), nobody's child. *)
Definition w_flagged : world :=
  mkWorld [mk_site "lon" "uk" ["r9"] 0 1; mk_device "r9" "edge" [] 1 1]
          [mk_ad "src" (SLocal []); mk_ad "dst" (SLocal [("site", [("lon", 0)]); ("device", [("r9", 1)])])] [] [].
Theorem C73_flags_refuted : exists w sa da,
  alike w 20 0 1 sa da /\ comparable w 20 0 1 sa da /\
  let w' := fst (sync_from 20 default_hooks 1 0 base_class 0 false None w) in
  lookup w' 1 "site" "lon" = None /\ lookup w' 1 "device" "r9" <> None /\ forall sa' da', ad_top da' = ad_top da -> ~ alike w' 20 0 1 sa' da'.
Proof.
  exists w_flagged, (mk_ad "src" (SLocal [])), (mk_ad "dst" (SLocal [("site", [("lon", 0)]); ("device", [("r9", 1)])])).
  split; [apply (alikeb_ok _ _ _ _ _ _ rank); vm_compute; reflexivity|]. split; [apply (comparableb_ok _ _ _ _ _ _ rank); vm_compute; reflexivity|]. cbv zeta.
  split; [vm_compute; reflexivity|]. split; [vm_compute; discriminate|]. intros sa' da' T A.
  destruct (cp_rooted _ _ _ (al_dcomplete _ _ _ _ _ _ A) ("device", "r9")) as [I|(p & L)].
  - vm_compute. discriminate.
  - rewrite T in I. cbn in I. intuition discriminate.
  - pose proof (proj1 (listed_iff _ _ (al_local _ _ _ _ _ _ A) (al_keyed _ _ _ _ _ _ A) _ _) L) as L'. vm_compute in L'. exact L'.
Qed.
Print Assumptions C73_flags_refuted.

(** ** An example: the creation of sfo and the update of r1 fail twice, and then all is well *)
Definition deletableb (m : N) : bool := negb (N.testbit m 0) && negb (N.testbit m 3).
Lemma deletableb_ok m : deletableb m = true -> deletable m.
Proof. unfold deletableb, deletable. rewrite andb_true_iff, !negb_true_iff. auto. Qed.
Lemma children_deletable_ok w a ad : local_ok w a -> keyed w a -> forallb (fun ko => deletableb (o_flags (snd ko))) (stored_objs w a) = true ->
  forallb (fun tc => deletableb (c_flags (snd tc))) (ad_classes ad) = true -> children_deletable w a ad.
Proof.
  intros LO KY H1 H2. rewrite forallb_forall in *. split.
  - intros p k o _ R K. apply deletableb_ok. apply (H1 (k, o)). now apply (read_iff w a LO KY).
  - intros t c t' f c' _ _ G. apply deletableb_ok. apply (H2 (t', c')). now apply dget_Some_In.
Qed.
Lemma w0_deletable : children_deletable w0 1 da0.
Proof. apply children_deletable_ok; [apply (al_local _ _ _ _ _ _ w0_alike)|apply (al_keyed _ _ _ _ _ _ w0_alike)|reflexivity|reflexivity]. Qed.
Definition named_so (w : world) (r : ref) (s : string) : bool :=
  match nth_error (w_heap w) r with Some o => match dget (o_vals o) "name" with Some (VStr x) => String.eqb x s | _ => false end | None => false end.
Definition flaky : hooks := fun w hc => match hc with
  | HCreate _ ids _ => match dget ids "name" with Some (VStr x) => if String.eqb x "sfo" then mkOut false None [] (HRaise ObjectNotCreated) else default_outcome | _ => default_outcome end
  | HUpdate r _ => if named_so w r "r1" then mkOut true None [] (HRaise ExnValueError) else default_outcome
  | HDelete _ => default_outcome
  end.
Lemma flaky_honest : hooks_honest flaky.
Proof.
  intros w [c ids a|r a|r]; cbn [flaky]; [|destruct (named_so w r "r1"); cbn; congruence|reflexivity].
  destruct (dget ids "name") as [[]|]; try reflexivity. destruct (String.eqb s "sfo"); cbn; congruence.
Qed.
Lemma flaky_deletes : deletes_succeed flaky.
Proof. intros w r. split; reflexivity. Qed.
Definition w1a : world := fst (sync_from 20 flaky 1 0 base_class 1 false None w0).
Definition w2a : world := fst (sync_from 20 flaky 1 0 base_class 0 false None w1a).
Lemma tried_plain fuel src dst h fl w : hooks_honest h -> deletes_succeed h ->
  match snd (diff_from fuel dst src base_class fl false w) with Ok d => dc_order (d_class d) = order_default | Err _ => False end ->
  forall w1 w', w1 = fst (sync_from fuel h dst src base_class fl false None w) -> tried fuel src dst w1 w' -> tried fuel src dst w w'.
Proof.
  intros HH HD. destruct (snd (diff_from fuel dst src base_class fl false w)) as [d|] eqn:E; [|tauto]. intros O w1 w' -> T.
  eapply (tried_one fuel src dst w base_class fl false d h base_class fl false None); eauto; [rewrite O; exact order_default_once|right; split; [now left|exact E]].
Qed.
Lemma w2a_tried : tried 20 0 1 w0 w2a.
Proof.
  apply (tried_plain 20 0 1 flaky 1 w0 flaky_honest flaky_deletes) with (w1 := w1a); [vm_compute; reflexivity|unfold w1a; reflexivity|].
  apply (tried_plain 20 0 1 flaky 0 w1a flaky_honest flaky_deletes) with (w1 := w2a); [vm_compute; reflexivity|unfold w2a; reflexivity|]. apply tried_none.
Qed.
Example C73_example :
  alike w0 20 0 1 sa0 da0 /\ comparable w0 20 0 1 sa0 da0 /\ children_deletable w0 1 da0 /\ tried 20 0 1 w0 w2a /\
  (* the first is broken off by the update of r1, after that of nyc; the second time the update is not needed, and creating sfo fails *)
  snd (sync_from 20 flaky 1 0 base_class 1 false None w0) = Err ExnValueError /\ snd (sync_from 20 flaky 1 0 base_class 0 false None w1a) = Err ObjectNotCreated /\
  map (fun k => match lookup w2a 1 (fst k) (snd k) with Some _ => true | None => false end) [("device", "r1"); ("device", "r2"); ("site", "sfo"); ("site", "lon")] = [true; true; false; true] /\
  (exists w' d, sync_from 20 default_hooks 1 0 base_class 0 false None w2a = (w', Ok d) /\
     match snd (diff_from 20 1 0 base_class 0 false w') with Ok d' => diff_has_diffs d' = false | Err _ => False end).
Proof.
  split; [exact w0_alike|]. split; [exact w0_comparable|]. split; [exact w0_deletable|]. split; [|split; [vm_compute; reflexivity|]; split; [vm_compute; reflexivity|]; split; [vm_compute; reflexivity|]].
  - exact w2a_tried.
  - eexists. eexists. split; [vm_compute; reflexivity|vm_compute; reflexivity].
Qed.
