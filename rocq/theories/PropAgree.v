(** * PropAgree: no differences means the same contents (C76).

    [alike] and [comparable] are defined in ConvergeSpec.v, [entire] and [holds_copy] in CopySpec.v. *)
From Verif Require Import AgreeFacts PropCopy.

(** C76.  Comparing two adapters of which nothing is left out finds no difference exactly if they hold the
    same: objects of the same types and unique ids with equal identifiers, attributes and children. *)
Theorem C76_iff : forall fuel dst src dc flags cb w sa da,
  alike w fuel src dst sa da -> comparable w fuel src dst sa da -> entire w flags src dst sa da ->
  exists d, snd (diff_from fuel dst src dc flags cb w) = Ok d /\ (diff_has_diffs d = false <-> holds_copy w src w dst).
Proof. exact agree_iff. Qed.
Print Assumptions C76_iff.
(** The flags do not matter for one direction: equal contents never differ. *)
Theorem C76_equal : forall fuel dst src dc flags cb w sa da,
  alike w fuel src dst sa da -> comparable w fuel src dst sa da -> (forall o k, read w src o -> is_key o k -> rooted w src (ad_top sa) k) ->
  holds_copy w src w dst ->
  exists d, snd (diff_from fuel dst src dc flags cb w) = Ok d /\ forall x, occurs x (d_groups d) -> e_action x = None.
Proof.
  intros fuel dst src dc flags cb w sa da AL CM RT HC. destruct (compares fuel dst src dc flags cb w sa da AL CM) as (d & D). exists d. split; [exact D|].
  assert (US : uses fuel dst src dc flags cb None w d) by (right; split; [now left|exact D]).
  apply (diff_from_iff fuel dst src dc flags cb w sa da) in D as (sk & FD & _); try apply AL.
  exact (agree_idle fuel default_hooks dst src dc flags cb w d sa da AL sk FD US RT HC).
Qed.
Print Assumptions C76_equal.

(** the sample before and after a synchronisation *)
Definition sa76 : adapter := match nth_error (w_ads w0_end) 0 with Some a => a | None => sa0 end.
Definition da76 : adapter := match nth_error (w_ads w0_end) 1 with Some a => a | None => da0 end.
Definition differs (w : world) (flags : N) : option bool :=
  match snd (diff_from 20 1 0 base_class flags false w) with Ok d => Some (diff_has_diffs d) | Err _ => None end.
Lemma differs_ok w flags b d : differs w flags = Some b -> snd (diff_from 20 1 0 base_class flags false w) = Ok d -> diff_has_diffs d = b.
Proof. unfold differs. intros H E. rewrite E in H. now injection H. Qed.
Example C76_example :
  (alike w0 20 0 1 sa0 da0 /\ comparable w0 20 0 1 sa0 da0 /\ entire w0 0 0 1 sa0 da0 /\ differs w0 0 = Some true /\ ~ holds_copy w0 0 w0 1) /\
  (alike w0_end 20 0 1 sa76 da76 /\ comparable w0_end 20 0 1 sa76 da76 /\ entire w0_end 0 0 1 sa76 da76 /\ differs w0_end 0 = Some false /\ holds_copy w0_end 0 w0_end 1).
Proof.
  assert (D0 : differs w0 0 = Some true) by (vm_compute; reflexivity). assert (D1 : differs w0_end 0 = Some false) by (vm_compute; reflexivity).
  assert (AL : alike w0_end 20 0 1 sa76 da76) by (apply (alikeb_ok _ _ _ _ _ _ rank); vm_compute; reflexivity).
  assert (CM : comparable w0_end 20 0 1 sa76 da76) by (apply (comparableb_ok _ _ _ _ _ _ rank); vm_compute; reflexivity).
  assert (EN : entire w0_end 0 0 1 sa76 da76) by (apply (entireb_ok 5); [exact (al_refs _ _ _ _ _ _ AL)|apply localb_ok; vm_compute; reflexivity|apply keyedb_ok; vm_compute; reflexivity|exact (al_local _ _ _ _ _ _ AL)|vm_compute; reflexivity]).
  split.
  - split; [exact w0_alike|]. split; [exact w0_comparable|]. split; [exact w0_entire|]. split; [exact D0|].
    destruct (C76_iff 20 1 0 base_class 0 false w0 sa0 da0 w0_alike w0_comparable w0_entire) as (d & E & H). intros HC. apply H in HC. rewrite (differs_ok _ _ _ _ D0 E) in HC. discriminate.
  - split; [exact AL|]. split; [exact CM|]. split; [exact EN|]. split; [exact D1|].
    destruct (C76_iff 20 1 0 base_class 0 false w0_end sa76 da76 AL CM EN) as (d & E & H). apply H. exact (differs_ok _ _ _ _ D1 E).
Qed.

(** With SKIP_UNMATCHED_BOTH the other direction fails: an adapter with a site too many does not differ. *)
Definition w76 : world :=
  mkWorld [mk_site "nyc" "east" [] 0 0; mk_site "nyc" "east" [] 0 1; mk_site "lon" "uk" [] 0 1]
    [mk_ad "src" (SLocal [("site", [("nyc", 0)])]); mk_ad "dst" (SLocal [("site", [("nyc", 1); ("lon", 2)])])] [] [].
Definition sa76s : adapter := mk_ad "src" (SLocal [("site", [("nyc", 0)])]).
Definition da76s : adapter := mk_ad "dst" (SLocal [("site", [("nyc", 1); ("lon", 2)])]).
Theorem C76_skip_refuted : exists w sa da d,
  alike w 20 0 1 sa da /\ comparable w 20 0 1 sa da /\ entire w 0 0 1 sa da /\
  snd (diff_from 20 1 0 base_class 6 false w) = Ok d /\ diff_has_diffs d = false /\ ~ holds_copy w 0 w 1.
Proof.
  exists w76, sa76s, da76s. eexists.
  assert (AL : alike w76 20 0 1 sa76s da76s) by (apply (alikeb_ok _ _ _ _ _ _ rank); vm_compute; reflexivity).
  assert (CM : comparable w76 20 0 1 sa76s da76s) by (apply (comparableb_ok _ _ _ _ _ _ rank); vm_compute; reflexivity).
  assert (EN : entire w76 0 0 1 sa76s da76s) by (apply (entireb_ok 5); [exact (al_refs _ _ _ _ _ _ AL)|apply localb_ok; vm_compute; reflexivity|apply keyedb_ok; vm_compute; reflexivity|exact (al_local _ _ _ _ _ _ AL)|vm_compute; reflexivity]).
  split; [exact AL|]. split; [exact CM|]. split; [exact EN|]. split; [vm_compute; reflexivity|]. split; [vm_compute; reflexivity|].
  assert (D : differs w76 0 = Some true) by (vm_compute; reflexivity).
  destruct (C76_iff 20 1 0 base_class 0 false w76 sa76s da76s AL CM EN) as (d & E & H). intros HC. apply H in HC. rewrite (differs_ok _ _ _ _ D E) in HC. discriminate.
Qed.
Print Assumptions C76_skip_refuted.
