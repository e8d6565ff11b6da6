(** * ConvCascade: deletions take the stored descendants along. *)
From Verif Require Export ConvFirst FromMore.

Lemma has_diffs_none d : (forall x, occurs x (d_groups d) -> e_action x = None) -> diff_has_diffs d = false.
Proof.
  intros H. unfold diff_has_diffs. destruct (groups_have_diffs (d_groups d)) eqn:E; [|reflexivity]. apply groups_have_diffs_spec in E as (x & O & A). now elim A; apply H.
Qed.

Lemma cascades fuel h dst src dcd dc flags fl cbd cb given w d sa da e k r o : alike w fuel src dst sa da -> hooks_succeed h ->
  snd (diff_from fuel dst src dcd flags cbd w) = Ok d -> yields_once (dc_order (d_class d)) -> uses fuel dst src dc fl cb given w d ->
  occurs e (d_groups d) -> e_action e = Some ADelete -> names w dst e k -> lookup w dst (fst k) (snd k) = Some r -> nth_error (w_heap w) r = Some o ->
  let w' := fst (sync_from fuel h dst src dc fl cb given w) in
  lookup w' dst (fst k) (snd k) = None /\
  (N.testbit (o_flags o) 1 = true -> forall k', reaches w dst k k' -> lookup w' dst (fst k') (snd k') = None).
Proof.
  intros AL HK DF YO US O EA (ad & c & N1 & N2 & N3 & N4) LK HO. apply (diff_from_iff fuel dst src dcd flags cbd w sa da) in DF as (sk & FD & _); try apply AL.
  destruct (sync_ends fuel h dst src dc flags fl cb given w d sa da AL anyf HK (write_anyf h) YO sk FD US) as (w' & E & GD & MV & DN & _). rewrite E. cbn [fst].
  apply occurs_children in O as (x & Ix & Ie). pose proof (DN x Ix e Ie) as D1.
  assert (AL' : alike w (sv_fuel (env0 fuel h dst src fl cb d)) (sv_src (env0 fuel h dst src fl cb d)) (sv_dst (env0 fuel h dst src fl cb d)) sa da) by exact AL.
  destruct (top_ok fuel h dst src dc flags fl cb given w d sa da AL sk FD US x Ix) as (m & so & do & _ & OK).
  destruct (below _ _ _ _ _ _ _ AL' _ _ _ _ _ _ OK Ie) as (j & m' & so' & do' & _ & OKE & _).
  destruct OKE as (P & _ & D & _). destruct (describes_key _ _ _ _ _ _ _ AL' _ _ _ _ _ P D) as (c' & C1 & C2 & _ & C4 & _).
  assert (ad = da) by (pose proof (al_dst _ _ _ _ _ _ AL); congruence). subst ad. assert (c' = c) by congruence. subst c'.
  assert (KE : akey da e = k).
  { unfold akey. rewrite N2, N4. destruct k as [k1 k2]. simpl in *. congruence. }
  unfold done1 in D1. rewrite EA, KE in D1. cbn [sv_dst env0] in D1. destruct D1 as (A & B). split; [exact A|].
  intros TB k' R. apply (B r o LK HO); [|exact R]. now rewrite skip_bit1.
Qed.
