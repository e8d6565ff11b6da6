(** * ForetellFacts: a summary and the synchronisation. *)
From Verif Require Export ForetellSpec CallFacts OutcomeFacts.

Lemma calls_of_app a x y : calls_of a (x ++ y) = calls_of a x + calls_of a y.
Proof. apply how_many_app. Qed.
Lemma calls_of_cons a ev l : calls_of a (ev :: l) = calls_of a [ev] + calls_of a l.
Proof. change (ev :: l) with ([ev] ++ l). apply calls_of_app. Qed.
Lemma calls_of_hooks a evs : calls_of a (hook_calls evs) = calls_of a evs.
Proof.
  unfold hook_calls. induction evs as [|ev evs IH]; [reflexivity|]. cbn [filter]. rewrite (calls_of_cons a ev evs), <- IH. destruct (hookb ev) eqn:H; [apply calls_of_cons|]. now destruct ev.
Qed.
Lemma no_calls a evs : hook_calls evs = [] -> calls_of a evs = 0.
Proof. intros E. rewrite <- calls_of_hooks, E. reflexivity. Qed.

Section Counts.
  Variable ord : order_fn.
  Variable a : action.
  Definition due (e : elem) : nat := sel_count (Some a) (elem_counts ord e).
  Lemma due_groups gs : sel_count (Some a) (groups_counts ord gs) = list_sum (map due (ordered ord (fun e => e) gs)).
  Proof.
    unfold groups_counts. pose proof (counts_fold_gen (ordered ord (elem_counts ord) gs) counts0) as (H1 & H2 & H3 & _). unfold due.
    rewrite (ordered_map ord (elem_counts ord)) in *. rewrite map_map in *. destruct a; simpl in *; assumption.
  Qed.
  Lemma due_eq e : due e = (if is_action (Some a) e then 1 else 0) + list_sum (map due (ordered ord (fun e => e) (e_kids e))).
  Proof.
    unfold due at 1. rewrite elem_counts_eq, <- due_groups. unfold is_action. destruct a, (e_action e) as [[]|]; reflexivity.
  Qed.
  Lemma due_diff d : ord = dc_order (d_class d) -> summary_of a d = list_sum (map due (ordered ord (fun e => e) (d_groups d))).
  Proof. intros E. unfold summary_of, diff_counts. rewrite <- E, <- due_groups. destruct a; reflexivity. Qed.

  (** ** Never more *)
  Section Run.
    Variables (flags : N) (cb : bool) (total : nat).
    Variable Ends : event -> callend -> Prop.
    Variable Has : elem -> obj -> Prop.
    Variable Lacks : elem -> Prop.
    Variable clsof : elem -> option cls.
    Notation Run := (run_of flags cb total Ends Has Lacks clsof ord).
    Lemma steps_due es : (forall e, In e es -> forall n evs n' r, Run e n evs n' r -> calls_of a evs <= due e) ->
      forall n b evs n' r, steps (map Run es) n b evs n' r -> calls_of a evs <= list_sum (map due es).
    Proof.
      induction es as [|e es IH]; intros H n b evs n' r S; cbn [map] in S; inversion S as [|C cs n0 b0 ev1 n1 b1 ev2 n2 r0 H1 H2|C cs n0 b0 ev n1 x H1]; subst.
      - apply Nat.le_0_l.
      - rewrite calls_of_app. cbn [map]. change (list_sum (due e :: map due es)) with (due e + list_sum (map due es)). apply Nat.add_le_mono; [exact (H e (or_introl eq_refl) _ _ _ _ H1)|].
        exact (IH (fun x I => H x (or_intror I)) _ _ _ _ _ H2).
      - cbn [map]. change (list_sum (due e :: map due es)) with (due e + list_sum (map due es)). pose proof (H e (or_introl eq_refl) _ _ _ _ H1). lia.
    Qed.
    Lemma call_due e c f call : call_of Has e c f call -> calls_of a [call] = if is_action (Some a) e then 1 else 0.
    Proof.
      intros (_ & H). unfold is_action. destruct (e_action e) as [[]|]; [subst call|destruct H as (o & _ & ->)|destruct H as (o & _ & ->)|destruct H]; unfold calls_of, how_many; cbn; destruct a; reflexivity.
    Qed.
    Lemma attempt_due e c lg f evs v : attempt flags Ends Has Lacks e c lg f evs v -> calls_of a evs <= if is_action (Some a) e then 1 else 0.
    Proof.
      intros A. inversion A; subst; rewrite ?(calls_of_cons a _ [EvLog _ _ _ _]); try (erewrite call_due by eassumption); try (cbn; lia).
      unfold unchanged_log. destruct (N.testbit flags 3); cbn; lia.
    Qed.
    Lemma progress_due n : calls_of a (progress cb total n) = 0.
    Proof. unfold progress. now destruct cb. Qed.
    Lemma missing_due evs : Forall missing_child evs -> calls_of a evs = 0.
    Proof. intros F. apply no_calls. now apply missing_no_hook. Qed.
    Lemma run_due e : forall n evs n' r, Run e n evs n' r -> calls_of a evs <= due e.
    Proof.
      induction e as [e IH] using elem_ind'. intros n evs n' r. rewrite RunFacts.run_eq, RunFacts.kids_run, due_eq. set (kids := ordered ord (fun e => e) (e_kids e)).
      assert (KD : forall n b evs n' r, steps (map Run kids) n b evs n' r -> calls_of a evs <= list_sum (map due kids)).
      { apply steps_due. intros x I. apply RunFacts.kid_occ, In_children in I as (t & g & m & I1 & I2). exact (IH t g m x I1 I2). }
      intros O. inversion O as [x X|evk n1 x AD HO ST|c u found nat1 evk nk lg eva v evr n1 r1 CL CU BE LG NF AT AF]; subst.
      - apply Nat.le_0_l.
      - pose proof (KD _ _ _ _ _ ST). lia.
      - rewrite !calls_of_app. pose proof (attempt_due _ _ _ _ _ _ AT) as DA. unfold RunSpec.before in BE. destruct nat1.
        + destruct BE as (_ & _ & b & ST). pose proof (KD _ _ _ _ _ ST) as DK. assert (calls_of a evr = 0).
          { inversion AF as [x|  |evs0 x X F N0|evs0 o X1 X2 X3 F|evs0 n2 r2 X1 X2 X3|X1]; subst; try reflexivity; try (now apply missing_due); apply progress_due. }
          lia.
        + destruct BE as (-> & _ & _). cbn [calls_of]. change (calls_of a []) with 0. assert (calls_of a evr <= list_sum (map due kids)).
          { inversion AF as [x|  |evs0 x X F N0|evs0 o X1 X2 X3 F|evs0 n2 r2 X1 X2 X3|X1]; subst; try (change (0 <= list_sum (map due kids)); apply Nat.le_0_l); try (rewrite missing_due by assumption; apply Nat.le_0_l); [rewrite calls_of_app, progress_due; exact (KD _ _ _ _ _ X3)|rewrite progress_due; apply Nat.le_0_l]. }
          lia.
    Qed.
    Lemma run_all_due gs evs n r : run_of_all flags cb total Ends Has Lacks clsof ord gs evs n r -> calls_of a evs <= list_sum (map due (ordered ord (fun e => e) gs)).
    Proof. unfold run_of_all. rewrite RunFacts.kids_run. apply steps_due. intros e _. apply run_due. Qed.
  End Run.

  (** ** Exactly as many *)
  Section Calls.
    Variables (w : world) (dst : aid) (gs : dict (dict elem)).
    Hypothesis NS : forall e o, occurs e gs -> e_action e = Some ADelete -> dst_obj w dst e o -> ~ skips_children (o_flags o).
    Notation Calls := (calls w dst ord (fun _ => True) (fun _ => False) False).
    Notation CallsAll := (calls_all w dst ord (fun _ => True) (fun _ => False) False).
    Lemma about_due e call : about w dst e call -> calls_of a [call] = if is_action (Some a) e then 1 else 0.
    Proof. intros (k & _ & H). unfold calls_of, how_many, is_action. destruct call as [b t ids attrs| | |]; try (now destruct H). destruct H as (-> & _). cbn. destruct a, b; reflexivity. Qed.
    Lemma all_due es : (forall e, In e es -> forall evs, Calls e evs -> calls_of a evs = due e) -> forall evs, CallsAll es evs -> calls_of a evs = list_sum (map due es).
    Proof.
      induction es as [|e es IH]; intros H evs C; inversion C as [|e0 es0 ev1 ev2 C1 C2]; subst; [reflexivity|]. rewrite calls_of_app. cbn [map]. change (list_sum (due e :: map due es)) with (due e + list_sum (map due es)).
      rewrite (H e (or_introl eq_refl) _ C1), (IH (fun x I => H x (or_intror I)) _ C2). reflexivity.
    Qed.
    Lemma calls_due e : occurs e gs -> forall evs, Calls e evs -> calls_of a evs = due e.
    Proof.
      induction e as [e IH] using elem_ind'. intros O evs C. rewrite due_eq.
      assert (KD : forall evs, CallsAll (kids_in_order ord e) evs -> calls_of a evs = list_sum (map due (ordered ord (fun e => e) (e_kids e)))).
      { apply all_due. intros x I. apply RunFacts.kid_occ in I. assert (OX : occurs x gs) by exact (occurs_kid _ _ _ O I). apply In_children in I as (t & g & m & I1 & I2). exact (IH t g m x I1 I2 OX). }
      inversion C as [e0 evs0 A K|e0 call evs0 A AB FI K|e0 o call evs0 A DO NN SK AB FI K|e0 o call evs0 A DO NN SK K AB|e0 o call A DO SK AB FI|e0 call AB FA X|e0 MI A]; subst.
      - rewrite (KD _ K). unfold is_action. rewrite A. reflexivity.
      - rewrite calls_of_cons, (about_due _ _ AB), (KD _ K). reflexivity.
      - rewrite calls_of_cons, (about_due _ _ AB), (KD _ K). reflexivity.
      - rewrite calls_of_app, (about_due _ _ AB), (KD _ K). lia.
      - elim (NS e o O A DO SK).
      - destruct FA.
      - destruct MI.
    Qed.
    Lemma calls_all_due evs : CallsAll (ordered ord (fun e => e) gs) evs -> calls_of a evs = list_sum (map due (ordered ord (fun e => e) gs)).
    Proof. apply all_due. intros e I. apply calls_due. apply RunFacts.kid_occ, In_children in I as (t & g & m & I1 & I2). eapply occ_here; eauto. Qed.
  End Calls.
End Counts.

Lemma callbacks_no_calls a evs : Forall is_callback evs -> calls_of a evs = 0.
Proof. induction 1 as [|ev l H _ IH]; [reflexivity|]. rewrite calls_of_cons, IH. destruct H as (x0 & t & ->); reflexivity. Qed.
Lemma from_at_most fuel h dst src dc flags cb given w d a : (forall d0, given = Some d0 -> deletes_whole (d_groups d0)) ->
  uses fuel dst src dc flags cb given w d -> calls_of a (new_events w (fst (sync_from fuel h dst src dc flags cb given w))) <= summary_of a d.
Proof.
  intros HG U. pose proof (from_course fuel h dst src dc flags cb given w HG) as S. destruct (sync_from fuel h dst src dc flags cb given w) as [w' r]. cbn [fst].
  destruct S as (pre & F & [(_ & _ & NU)|(d' & clsof & evs & n & x & U' & _ & C & T)]); [elim (NU d U)|]. assert (d' = d) by (eapply uses_fun; eauto). subst d'.
  apply (run_all_due _ a) in C. rewrite <- (due_diff _ a d eq_refl) in C.
  destruct x as [b|y]; destruct T as (_ & T); rewrite (new_events_app _ _ _ T), !calls_of_app, (callbacks_no_calls a pre F); [|lia]. destruct b; cbn; unfold calls_of, how_many in *; cbn; lia.
Qed.

(** ** The keys of a store *)
Definition lkeys (w : world) (a : aid) : list (string * string) :=
  match nth_error (w_ads w) a with
  | Some ad => match ad_store ad with SLocal d => flat_map (fun kv => map (fun ur => (fst kv, fst ur)) (snd kv)) d | SRedis _ => [] end
  | None => []
  end.
Lemma lkeys_len w a : local_ok w a -> length (lkeys w a) = count_all w a.
Proof.
  intros (ad & d & N & E & _). unfold lkeys, count_all. rewrite N, E. clear. induction d as [|[t b] d IH]; [reflexivity|]. cbn [flat_map map fst snd list_sum]. rewrite app_length, map_length, IH. reflexivity.
Qed.
Lemma lkeys_in w a t u : local_ok w a -> In (t, u) (lkeys w a) <-> lookup w a t u <> None.
Proof.
  intros (ad & d & N & E & ND & NB). unfold lkeys, lookup. rewrite N, E. unfold bucket. rewrite in_flat_map. split.
  - intros ([t' b] & I & J). cbn [fst snd] in J. apply in_map_iff in J as ([u' r] & X & J). injection X as -> ->. cbn [fst] in *. rewrite (In_dget _ _ _ ND I), (In_dget _ _ _ (NB _ _ I) J). discriminate.
  - intros H. destruct (dget d t) as [b|] eqn:B; [|now elim H]. destruct (dget b u) as [r|] eqn:R; [|now elim H]. exists (t, b). split; [now apply dget_Some_In|]. cbn [fst snd]. apply in_map_iff. exists (u, r). split; [reflexivity|now apply dget_Some_In].
Qed.
Lemma lkeys_NoDup w a : local_ok w a -> NoDup (lkeys w a).
Proof.
  intros (ad & d & N & E & ND & NB). unfold lkeys. rewrite N, E. clear N E ad. induction d as [|[t b] d IH]; [constructor|]. cbn [flat_map fst snd]. inversion ND as [|x y NI ND']; subst.
  apply NoDup_app_intro.
  - pose proof (NB t b (or_introl eq_refl)) as X. clear - X. unfold dkeys in X. induction b as [|[u r] b IH]; [constructor|]. cbn in *. inversion X as [|? ? NI ND]; subst. constructor; [|now apply IH]. intros I. apply in_map_iff in I as ([u' r'] & E & I). injection E as ->. apply NI. apply in_map_iff. exists (u, r'). auto.
  - apply IH; [exact ND'|]. intros m b0 I. exact (NB m b0 (or_intror I)).
  - intros k I J. apply in_map_iff in I as ([u r] & <- & I). apply in_flat_map in J as ([t' b'] & J & K). apply in_map_iff in K as ([u' r'] & X & K). cbn [fst] in X. injection X as -> ->. apply NI. apply in_map_iff. exists (t, b'). auto.
Qed.

(** ** Every key once *)
Section Once.
  Variables (fuel : nat) (h : hooks) (dst src : aid) (dc : diffclass) (flags fl : N) (cb : bool) (given : option diff) (w : world) (d : diff).
  Variables (sa da : adapter).
  Hypothesis AL : alike w fuel src dst sa da.
  Variable sk : nat.
  Hypothesis FD : faithful_diff flags fuel w src dst sa da (d_groups d) sk.
  Hypothesis US : uses fuel dst src dc fl cb given w d.
  Notation env := (env0 fuel h dst src fl cb d).
  Notation elem_ok := (ConvFits.elem_ok flags env w sa da (ad_name sa) (ad_name da)).
  Notation akey := (ConvRun.akey da).
  Let AL' : alike w (sv_fuel env) (sv_src env) (sv_dst env) sa da := AL.

  Lemma list_once n m es : NoDup (map tagged es) -> (forall x, In x es -> exists m' so do, m' <= m /\ elem_ok n m' x so do) ->
    (forall x, In x es -> NoDup (map akey (elem_all x))) -> NoDup (map akey (flat_map elem_all es)).
  Proof.
    intros ND H HX. pose proof (feet_apart _ _ _ _ _ _ _ AL' n es m ND H) as FA. clear H. induction es as [|x es IH]; [constructor|]. cbn [flat_map]. rewrite map_app. cbn [map] in ND. inversion ND as [|? ? NI ND']; subst. apply NoDup_app_intro.
    - apply HX. now left.
    - apply IH; [exact ND'|intros y I; apply HX; now right|]. intros y z k Iy Iz. apply FA; now right.
    - intros k I J. apply in_map_iff in I as (y & Ey & I). apply in_map_iff in J as (z & Ez & J). apply in_flat_map in J as (x' & I' & J).
      assert (E : x = x').
      { apply (FA x x' k); [now left|now right|exists y; auto|exists z; auto]. }
      subst x'. apply NI. now apply in_map.
  Qed.
  Lemma elem_once m : forall n x so do, elem_ok n m x so do -> NoDup (map akey (elem_all x)).
  Proof.
    induction m as [m IH] using lt_wf_ind. intros n x so do OK. rewrite elem_all_eq, tree_all_children. cbn [map].
    assert (KO : forall y, In y (children (e_kids x)) -> exists m' so do, m' < m /\ elem_ok (S n) m' y so do).
    { intros y I. destruct (ConvFits.ok_kids _ _ _ _ _ _ _ AL' _ _ _ _ _ _ OK I) as (m1 & c & t1 & f & ss & dd & u1 & -> & _ & _ & _ & _ & _ & OK1). exists m1. do 2 eexists. split; [lia|exact OK1]. }
    constructor.
    - intros I. apply in_map_iff in I as (y & E & I). apply in_flat_map in I as (z & Iz & I). destruct (KO z Iz) as (m1 & so1 & do1 & _ & OK1).
      destruct (below _ _ _ _ _ _ _ AL' _ _ _ _ _ _ OK1 I) as (j & m' & so' & do' & _ & OKE & _). destruct OK as (P & _). destruct OKE as (P' & _). rewrite E in P'.
      destruct (pos_fun _ _ _ _ _ AL' _ _ _ _ _ _ _ P P') as (_ & _ & X). lia.
    - apply (list_once (S n) m).
      + eapply kids_NoDup; eauto.
      + intros y I. destruct (KO y I) as (m' & so' & do' & L & OK1). exists m', so', do'. split; [lia|exact OK1].
      + intros y I. destruct (KO y I) as (m' & so' & do' & L & OK1). exact (IH m' L _ _ _ _ OK1).
  Qed.
  Lemma keys_once : NoDup (map akey (tree_all (d_groups d))).
  Proof.
    rewrite tree_all_children. apply (list_once 0 fuel).
    - eapply top_NoDup; exact FD.
    - intros x I. exact (top_ok fuel h dst src dc flags fl cb given w d sa da AL sk FD US x I).
    - intros x I. destruct (top_ok fuel h dst src dc flags fl cb given w d sa da AL sk FD US x I) as (m & so & do & _ & OK). exact (elem_once _ _ _ _ _ OK).
  Qed.
End Once.

Lemma map_filter_NoDup {A B} (f : A -> B) (p : A -> bool) l : NoDup (map f l) -> NoDup (map f (filter p l)).
Proof.
  induction l as [|x l IH]; intros ND; [constructor|]. cbn [map filter] in *. inversion ND as [|? ? NI ND']; subst. destruct (p x); [|now apply IH].
  cbn [map]. constructor; [|now apply IH]. intros I. apply NI. apply in_map_iff in I as (y & E & I). apply filter_In in I as (I & _). apply in_map_iff. eauto.
Qed.
Lemma map_inj_in {A B} (f : A -> B) l x y : NoDup (map f l) -> In x l -> In y l -> f x = f y -> x = y.
Proof.
  induction l as [|z l IH]; intros ND I J E; [destruct I|]. cbn [map] in ND. inversion ND as [|? ? NI ND']; subst.
  destruct I as [->|I], J as [->|J]; auto; exfalso; apply NI; apply in_map_iff; eauto.
Qed.

Definition skey_dec (x y : string * string) : {x = y} + {x <> y}.
Proof. decide equality; apply string_dec. Defined.
Section Len.
  Variables (fuel : nat) (h : hooks) (dst src : aid) (dcd dc : diffclass) (flags fl : N) (cbd cb : bool) (given : option diff) (w : world) (d : diff).
  Variables (sa da : adapter).
  Hypothesis AL : alike w fuel src dst sa da.
  Hypothesis HK : hooks_succeed h.
  Hypothesis DF : snd (diff_from fuel dst src dcd flags cbd w) = Ok d.
  Hypothesis YO : yields_once (dc_order (d_class d)).
  Hypothesis US : uses fuel dst src dc fl cb given w d.
  Hypothesis NS : forall e o, occurs e (d_groups d) -> e_action e = Some ADelete -> dst_obj w dst e o -> ~ skips_children (o_flags o).
  Let w' := fst (sync_from fuel h dst src dc fl cb given w).
  Notation akey := (ConvRun.akey da).

  Lemma len_after : count_all w' dst + n_delete (diff_counts d) = count_all w dst + n_create (diff_counts d).
  Proof.
    destruct (leaves_as fuel h dst src dcd dc flags fl cbd cb given w d sa da AL HK anyf (write_anyf h) d DF eq_refl YO US) as (_ & FT & WH & _).
    fold w' in FT, WH. pose proof DF as DF'. apply (diff_from_iff fuel dst src dcd flags cbd w sa da) in DF' as (sk & FD & _); try apply AL.
    destruct (sync_ends fuel h dst src dc flags fl cb given w d sa da AL anyf HK (write_anyf h) YO sk FD US) as (w1 & E1 & (LO' & _) & _).
    assert (X : w' = w1) by (unfold w'; now rewrite E1). rewrite <- X in LO'. clear w1 E1 X.
    assert (LO : local_ok w dst) by (apply (al_local _ _ _ _ _ _ AL)).
    pose proof (keys_once fuel h dst src dc flags fl cb given w d sa da AL sk FD US) as KO.
    assert (NM : forall e k, occurs e (d_groups d) -> names w dst e k <-> akey e = k).
    { intros e k O. destruct (elem_found fuel h dst src dc flags fl cb given w d sa da AL sk FD US e O) as (n & m & so & do & OK). eapply ok_names; [exact AL|exact OK]. }
    destruct (len_summary d YO) as (_ & _ & SC & _ & SD & _). rewrite SC, SD. unfold how_many. set (E := tree_all (d_groups d)) in *.
    assert (IE : forall e, In e E <-> occurs e (d_groups d)) by (intros e; apply In_tree_all).
    set (KC := map akey (filter (is_action (Some ACreate)) E)). set (KD := map akey (filter (is_action (Some ADelete)) E)).
    rewrite <- (lkeys_len _ _ LO), <- (lkeys_len _ _ LO'). replace (length (filter _ E)) with (length KD) by apply map_length. replace (length (filter _ E)) with (length KC) by apply map_length. rewrite <- !app_length.
    assert (IA : forall a k, In k (map akey (filter (is_action (Some a)) E)) <-> exists e, In e E /\ e_action e = Some a /\ akey e = k).
    { intros a k. rewrite in_map_iff. split.
      - intros (e & K & I). apply filter_In in I as (I & A). exists e. split; [exact I|]. split; [|exact K]. unfold is_action in A. destruct a, (e_action e) as [[]|]; try discriminate; reflexivity.
      - intros (e & I & A & K). exists e. split; [exact K|]. apply filter_In. split; [exact I|]. unfold is_action. rewrite A. destruct a; reflexivity. }
    assert (IW : forall k, In k (lkeys w dst) <-> lookup w dst (fst k) (snd k) <> None) by (intros [t u]; now apply lkeys_in).
    assert (IW' : forall k, In k (lkeys w' dst) <-> lookup w' dst (fst k) (snd k) <> None) by (intros [t u]; now apply lkeys_in).
    apply Permutation_length, NoDup_Permutation.
    - apply NoDup_app_intro; [now apply lkeys_NoDup|now apply map_filter_NoDup|]. intros k I J. apply IW' in I. apply IA in J as (e & Ie & A & K).
      pose proof (FT e k (proj1 (IE e) Ie) (proj2 (NM e k (proj1 (IE e) Ie)) K)) as F. unfold fate in F. rewrite A in F. now apply I.
    - apply NoDup_app_intro; [now apply lkeys_NoDup|now apply map_filter_NoDup|]. intros k I J. apply IW in I. apply IA in J as (e & Ie & A & K).
      pose proof (FT e k (proj1 (IE e) Ie) (proj2 (NM e k (proj1 (IE e) Ie)) K)) as F. unfold fate in F. rewrite A in F. now apply I.
    - assert (FE : forall e, In e E -> fate anyf w dst e (akey e) w') by (intros e I; apply FT; [now apply IE|now apply NM, eq_refl; apply IE]).
      intros k. rewrite !in_app_iff, IW, IW'. unfold KC, KD. rewrite !IA. split.
      + intros [L|(e & I & A & <-)].
        * apply WH in L as [(e & O & A & N)|(L & _)]; [|now left]. apply NM in N; [|exact O]. subst k. pose proof (FE e (proj2 (IE e) O)) as F. unfold fate in F.
          destruct (e_action e) as [[]|] eqn:EA; [right; exists e; split; [now apply IE|auto]| |now elim A|]; destruct F as (r & o & o' & L & _); left; congruence.
        * pose proof (FE e I) as F. unfold fate in F. rewrite A in F. now left.
      + intros [L|(e & I & A & <-)].
        * destruct (in_dec skey_dec k (map akey E)) as [I|I].
          -- apply in_map_iff in I as (e & <- & I). destruct (e_action e) as [[]|] eqn:EA.
             1,2,4: left; apply WH; left; exists e; split; [now apply IE|]; split; [unfold not_delete_act; congruence|apply NM; [now apply IE|reflexivity]].
             right. exists e. auto.
          -- assert (NA : ~ mentioned w dst (d_groups d) any_act k).
             { intros (e & O & _ & N). apply NM in N; [|exact O]. apply I. apply in_map_iff. exists e. split; [exact N|now apply IE]. }
             left. apply WH. right. split; [exact L|]. split; [exact NA|]. intros [(e & O & _ & N)|(kd & r & o & (e & O & A & N) & LK & HG & SK & _)].
             ++ apply NA. exists e. split; [exact O|]. split; [exact Logic.I|exact N].
             ++ apply (NS e o O A); [|exact SK]. exists kd, r. auto.
        * left. pose proof (FE e I) as F. unfold fate in F. rewrite A in F. destruct F as (_ & ad & c & r & o' & _ & _ & L & _). congruence.
  Qed.
End Len.
