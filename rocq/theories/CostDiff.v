(** * CostDiff: counting the commands of a comparison. *)
From Verif Require Export CostSync.

(** ** A method that costs [c] and whose result is worth [v] *)
Section Earn.
  Variables (ok : obj -> Prop) (cr : obj -> nat) (sc : nat).
  Definition earn {St A} (I : St -> Prop) (c : nat) (m : SM St A) (v : A -> nat) (g : A -> Prop) : Prop :=
    forall s n, I s -> pays ok cr sc (fun sx b => I (fst sx) /\ match snd sx with Ok x => v x + n <= b /\ g x | Err _ => True end) (c + n) (m s).
  Lemma earn_at {St A} (I : St -> Prop) c (m : SM St A) v g s n : earn I c m v g -> I s -> c <= n ->
    pays ok cr sc (fun sx b => I (fst sx) /\ match snd sx with Ok x => v x + (n - c) <= b /\ g x | Err _ => True end) n (m s).
  Proof. intros H IS L. pose proof (H s (n - c) IS) as X. now replace (c + (n - c)) with n in X by lia. Qed.
  Lemma earn_more {St A} (I : St -> Prop) c c' (m : SM St A) v g : earn I c m v g -> c <= c' -> earn I c' m v g.
  Proof.
    intros H L s n IS. eapply pays_post; [apply (earn_at I c m v g s (c' + n) H IS); lia|]. intros [s' [x|e]] b; cbn [fst snd]; [|tauto]. intros (? & ? & ?). split; [assumption|]. split; [lia|assumption].
  Qed.
  Lemma earn_here {St A} (I : St -> Prop) (m : M St A) (g : A -> Prop) : (forall s, I s -> I (fst (m s)) /\ forall x, snd (m s) = Ok x -> g x) -> earn I 0 (here m) (fun _ => 0) g.
  Proof. intros H s n IS. destruct (H s IS) as [K G]. unfold here. constructor. split; [exact K|]. destruct (m s) as [s' [x|e]]; cbn [fst snd]; [|exact Logic.I]. split; [lia|now apply G]. Qed.
  Lemma earn_bind {St A B} (I : St -> Prop) c c' (m : SM St A) (k : A -> SM St B) v g v' g' : earn I c m v g -> (forall x, g x -> earn I (v x + c') (k x) v' g') -> earn I (c + c') (cbind m k) v' g'.
  Proof.
    intros H K s n IS. replace (c + c' + n) with (c + (c' + n)) by lia. eapply pays_then; [now apply H|]. intros [s' [x|e]] b (I' & L); cbn [fst snd] in *; [destruct L as [L G]|].
    - eapply pays_post; [apply (earn_at I _ (k x) v' g' s' b (K x G) I'); lia|]. intros [s2 [y|e]] b2; cbn [fst snd]; [|tauto]. intros (? & ? & ?). split; [assumption|]. split; [lia|assumption].
    - constructor. now split.
  Qed.
  Lemma earn_for {St A} (I : St -> Prop) c (f : A -> SM St unit) l : (forall x, earn I c (f x) (fun _ => 0) (fun _ => True)) -> earn I (c * length l) (cforM l f) (fun _ => 0) (fun _ => True).
  Proof.
    intros H. induction l as [|x l IH]; cbn [cforM length]; [apply (earn_more I 0); [|lia]; apply earn_here; intros s Hs; now split|].
    apply (earn_more I (c + c * length l)); [|lia]. eapply earn_bind; [apply H|]. intros [] _. exact IH.
  Qed.
End Earn.

(** ** Sums over dictionaries *)
Section Sums.
  Context {A : Type} (f : A -> nat).
  Definition total (l : list A) : nat := list_sum (map f l).
  Definition worth (x : option A) : nat := match x with Some a => f a | None => 0 end.
  Lemma total_cons x l : total (x :: l) = f x + total l. Proof. reflexivity. Qed.
  Lemma total_dset d k x : total (dvals (dset d k x)) <= total (dvals d) + f x.
  Proof.
    induction d as [|[k' y] d IH]; cbn [dset]; [unfold total; cbn; lia|]. destruct (String.eqb k k'); unfold dvals in *; cbn [map snd]; rewrite ?total_cons; lia.
  Qed.
  Lemma total_one (v : nat) k L : NoDup L -> list_sum (map (fun u => if String.eqb u k then v else 0) L) <= v.
  Proof.
    unfold list_sum. induction 1 as [|u L NI ND IH]; cbn [map fold_right]; [lia|]. destruct (String.eqb_spec u k) as [->|]; [|lia].
    assert (Z : fold_right Nat.add 0 (map (fun u => if String.eqb u k then v else 0) L) = 0); [|lia]. clear IH ND. induction L as [|x L IH]; [reflexivity|]. cbn [map fold_right].
    destruct (String.eqb_spec x k) as [->|]; [destruct NI; now left|]. apply IH. intros I. apply NI. now right.
  Qed.
  Lemma total_get d L : NoDup L -> list_sum (map (fun u => worth (dget d u)) L) <= total (dvals d).
  Proof.
    intros ND. induction d as [|[k y] d IH]; [cbn [dget worth]; unfold total; cbn; clear; unfold list_sum; induction L; cbn; auto|].
    unfold dvals. cbn [map snd]. rewrite total_cons. fold (dvals d). pose proof (total_one (f y) k L ND) as T.
    assert (X : list_sum (map (fun u => worth (dget ((k, y) :: d) u)) L) <= list_sum (map (fun u => if String.eqb u k then f y else 0) L) + list_sum (map (fun u => worth (dget d u)) L)); [|lia].
    clear. unfold list_sum. induction L as [|u L IH]; cbn [map fold_right]; [lia|]. cbn [dget] in *. destruct (String.eqb u k); cbn [worth] in *; lia.
  Qed.
End Sums.

(** ** Fetching *)
Section Differ.
  Variables (env : denv) (kinds : string -> dict string) (rs rd : bool).
  Notation src := (en_src env). Notation dst := (en_dst env).
  Notation ok := (by_type kinds).
  Definition heap_ok (w : world) : Prop := forall r o, nth_error (w_heap w) r = Some o -> ok o.
  Definition posed (w : world) : Prop := store_kind src w rs /\ store_kind dst w rd /\ heap_ok w.
  Notation J := (fun s : dstate => posed (ds_w s)).
  Notation Earn := (earn ok kids_named 1 J).
  Definition worths (b : bool) (l : list obj) : nat := if b then total kids_named l else 0.
  Lemma kind_ads a w w' b : w_ads w' = w_ads w -> store_kind a w b -> store_kind a w' b.
  Proof. intros E (ad & H). exists ad. now rewrite E. Qed.
  Lemma posed_same w w' : w_ads w' = w_ads w -> heap_ok w' -> posed w -> posed w'.
  Proof. intros E H (A & B & _). split; [now apply (kind_ads src w)|]. split; [now apply (kind_ads dst w)|exact H]. Qed.

  (** several GETs *)
  Lemma load_all {B} a (key : B -> string) (f : B -> CM ref) us : forall w n, heap_ok w -> (forall w' u, w_ads w' = w_ads w -> f u w' = c_load a (key u) w') ->
    pays ok kids_named 1 (fun sx b => w_ads (fst sx) = w_ads w /\ (exists tl, w_heap (fst sx) = w_heap w ++ tl) /\ heap_ok (fst sx) /\
      match snd sx with Ok refs => exists os, Forall2 (fun r o => nth_error (w_heap (fst sx)) r = Some o) refs os /\ total kids_named os + n <= b | Err _ => True end) (length us + n) (cmapM f us w).
  Proof.
    induction us as [|u us IH]; intros w n HO HF; cbn [cmapM length].
    { constructor. cbn [fst snd]. split; [reflexivity|]. split; [exists []; now rewrite app_nil_r|]. split; [exact HO|]. exists []. split; [constructor|]. cbn. lia. }
    unfold cbind at 1. rewrite (HF w u eq_refl). unfold c_load, cbind at 1, cget. cbn [here cthen fst snd]. cbn [Nat.add]. constructor.
    - cbn. constructor. cbn. split; [reflexivity|]. split; [exists []; now rewrite app_nil_r|]. split; [exact HO|exact Logic.I].
    - intros o OO. cbn [here halloc cthen fst snd]. set (o' := set_o_adapter o (Some a)). set (w1 := set_heap w (w_heap w ++ [o'])).
      assert (H1 : heap_ok w1). { intros r x. cbn [w1 set_heap w_heap]. intros H. apply nth_error_In, in_app_iff in H as [H|[<-|[]]]; [apply In_nth_error in H as (r' & H); exact (HO r' x H)|exact OO]. }
      assert (E1 : w_ads w1 = w_ads w) by reflexivity.
      specialize (IH w1 (kids_named o + n) H1 (fun w' u' E => HF w' u' (eq_trans E E1))). unfold cbind at 1. replace (kids_named o + (length us + n)) with (length us + (kids_named o + n)) by lia.
      eapply pays_then; [exact IH|]. intros [w2 [refs|e]] b (A2 & (tl & T2) & H2 & R2); cbn [fst snd] in *.
      + destruct R2 as (os & F2 & L2). constructor. cbn [here fst snd ret]. split; [congruence|]. split; [exists (o' :: tl); rewrite T2; cbn [w1 set_heap w_heap]; now rewrite <- app_assoc|]. split; [exact H2|].
        exists (o' :: os). split; [constructor; [|exact F2]|].
        * rewrite T2. cbn [w1 set_heap w_heap]. rewrite <- app_assoc, nth_error_app2, Nat.sub_diag by lia. reflexivity.
        * rewrite total_cons. change (kids_named o') with (kids_named o). lia.
      + constructor. cbn [fst snd]. split; [congruence|]. split; [exists (o' :: tl); rewrite T2; cbn [w1 set_heap w_heap]; now rewrite <- app_assoc|]. split; [exact H2|exact Logic.I].
  Qed.
  Lemma hget_all w refs os : Forall2 (fun r o => nth_error (w_heap w) r = Some o) refs os -> mapM hget refs w = (w, Ok os).
  Proof. induction 1 as [|r o refs os E F IH]; [reflexivity|]. cbn [mapM]. unfold bind at 1, hget at 1. rewrite E. unfold bind. now rewrite IH. Qed.
  Lemma hget_some w refs : forall w' os, mapM hget refs w = (w', Ok os) -> Forall2 (fun r o => nth_error (w_heap w) r = Some o) refs os.
  Proof.
    induction refs as [|r refs IH]; cbn [mapM]; intros w' os H; [injection H as <- <-; constructor|]. unfold bind at 1, hget at 1 in H. destruct (nth_error (w_heap w) r) as [o|] eqn:E; [|discriminate H].
    unfold bind in H. destruct (mapM hget refs w) as [w1 [os'|e]] eqn:M; [|discriminate H]. injection H as <- <-. constructor; [exact E|]. eapply IH. reflexivity.
  Qed.
  Lemma hget_world w refs : fst (mapM hget refs w) = w.
  Proof. now rewrite mapM_hget. Qed.
  Lemma ok_all w refs os : heap_ok w -> Forall2 (fun r o => nth_error (w_heap w) r = Some o) refs os -> Forall ok os.
  Proof. intros H. induction 1; constructor; eauto. Qed.
  (** references in hand *)
  Lemma fetch_refs c b (m : CM (list ref)) : (forall w n, posed w -> pays ok kids_named 1 (fun sx k => posed (fst sx) /\
      match snd sx with Ok refs => forall os, Forall2 (fun r o => nth_error (w_heap (fst sx)) r = Some o) refs os -> worths b os + n <= k | Err _ => True end) (c + n) (m w)) ->
    Earn c (cbind (cdlift m) (fun rs => here (dlift (mapM hget rs)))) (worths b) (Forall ok).
  Proof.
    intros H s n P. unfold cbind, cdlift. eapply pays_then; [eapply pays_then; [exact (H (ds_w s) n P)|]|].
    { intros [w x] k K. constructor. exact (K : (fun (sx : dstate * result (list ref)) k => posed (ds_w (fst sx)) /\ match snd sx with Ok refs => forall os, Forall2 (fun r o => nth_error (w_heap (ds_w (fst sx))) r = Some o) refs os -> worths b os + n <= k | Err _ => True end) (mkDS w (ds_n s), x) k). }
    intros [s1 [refs|e]] k (P1 & K); cbn [fst snd] in *; [|constructor; now split]. constructor. unfold dlift. cbn [fst snd ds_w]. rewrite hget_world. split; [exact P1|].
    destruct (mapM hget refs (ds_w s1)) as [w' [os|e]] eqn:M; cbn [snd]; [|exact Logic.I]. apply hget_some in M. split; [now apply K|]. exact (ok_all _ _ _ (proj2 (proj2 P1)) M).
  Qed.
  Lemma kind_put a b d w k : store_kind b w k -> store_kind a w false -> store_kind b (fst (put_store a (SLocal d) w)) k.
  Proof.
    intros (ad & E & K) (ad' & E' & K'). unfold put_store, modify. cbn [fst]. rewrite E'. unfold store_kind. cbn [set_ads w_ads]. destruct (Nat.eq_dec b a) as [->|NE].
    - assert (ad' = ad) by congruence. subst ad'. eexists. split; [exact (nth_list_set_eq _ _ _ _ E)|]. cbn. congruence.
    - exists ad. split; [rewrite nth_list_set_neq by exact NE; exact E|exact K].
  Qed.
  Lemma posed_put a d w : store_kind a w false -> posed w -> posed (fst (put_store a (SLocal d) w)).
  Proof.
    intros K (A & B & C). split; [now apply kind_put|]. split; [now apply kind_put|]. intros r o. unfold put_store, modify. cbn [fst]. destruct (nth_error (w_ads w) a); apply C.
  Qed.
  Lemma get_kind a w b : store_kind a w b -> exists ad, get_adapter a w = (w, Ok ad) /\ (match ad_store ad with SRedis _ => true | SLocal _ => false end) = b.
  Proof. intros (ad & E & K). exists ad. unfold get_adapter. now rewrite E. Qed.
  Definition its (a : aid) (b : bool) : Prop := (a = src /\ b = rs) \/ (a = dst /\ b = rd).
  Lemma its_kind a b w : its a b -> posed w -> store_kind a w b.
  Proof. intros [[-> ->]|[-> ->]] (A & B & _); assumption. Qed.
  Lemma earn_all a b t : its a b -> Earn 1 (c_fetch_all a t) (worths b) (Forall ok).
  Proof.
    intros T. apply fetch_refs. intros w n P. destruct (get_kind a w b (its_kind a b w T P)) as (ad & G & K). unfold c_get_all, cbind at 1. cbn [here cthen]. rewrite G. cbn [fst snd].
    destruct (ad_store ad) as [d|i]; subst b.
    - constructor. pose proof (posed_put a (touch d (spec_name (MName t))) w (its_kind a false w T P) P) as P1. unfold bind. destruct (put_store a _ w) as [w1 [x|e]]; cbn [fst snd] in *; (split; [exact P1|]); [|exact Logic.I]. cbn. intros os _. lia.
    - cbn. constructor. intros ks. replace (1 * length ks + n) with (length ks + n) by lia. eapply pays_post; [apply (load_all a (fun k => k) (c_load a) ks w n (proj2 (proj2 P))); reflexivity|].
      intros [w1 [refs|e]] k (E & _ & H & R); cbn [fst snd] in *; (split; [exact (posed_same _ _ E H P)|]); [|exact Logic.I]. destruct R as (os & F & L). intros os' F'.
      assert (os' = os) by (clear - F F'; revert os' F'; induction F; intros os' F'; inversion F'; subst; [reflexivity|]; f_equal; [congruence|now apply IHF]). subst os'. exact L.
  Qed.
  Lemma earn_uids a b us t : its a b -> Earn (if b then length us else 0) (c_fetch_by_uids a us t) (worths b) (Forall ok).
  Proof.
    intros T. apply fetch_refs. intros w n P. destruct (get_kind a w b (its_kind a b w T P)) as (ad & G & K). destruct b.
    - destruct (ad_store ad) as [d|i] eqn:ES; [discriminate K|]. eapply pays_post.
      + apply (load_all a (fun u => redis_key i (spec_name (MName t)) u) _ us w n (proj2 (proj2 P))). intros w' u E. unfold cbind at 1. cbn [here cthen].
        assert (GA : get_adapter a w' = (w', Ok ad)). { unfold get_adapter in *. rewrite E. destruct (nth_error (w_ads w) a); [injection G as ->; reflexivity|discriminate G]. }
        rewrite GA. cbn [fst snd]. now rewrite ES.
      + intros [w1 [refs|e]] k (E & _ & H & R); cbn [fst snd] in *; (split; [exact (posed_same _ _ E H P)|]); [|exact Logic.I]. destruct R as (os & F & L). intros os' F'.
        assert (os' = os) by (clear - F F'; revert os' F'; induction F; intros os' F'; inversion F'; subst; [reflexivity|]; f_equal; [congruence|now apply IHF]). subst os'. exact L.
    - assert (SP : spend ok kids_named 1 posed (0 * length us) (c_get_by_uids a us (MName t))).
      { apply sp_map. intros u w0 n0 P0. destruct (get_kind a w0 false (its_kind a false w0 T P0)) as (ad0 & G0 & K0). unfold cbind at 1. cbn [here cthen]. rewrite G0. cbn [fst snd].
        destruct (ad_store ad0) as [d|i]; [|discriminate K0]. constructor. pose proof (posed_put a (touch d (spec_name (MName t))) w0 (its_kind a false w0 T P0) P0) as P1.
        unfold bind. destruct (put_store a _ w0) as [w1 [x|e]]; cbn [fst snd] in *; [|split; [exact P1|lia]]. destruct (dget _ _); cbn; (split; [exact P1|lia]). }
      eapply pays_post; [exact (SP w n P)|]. intros [w1 [refs|e]] k [P1 L]; cbn [fst snd] in *; (split; [exact P1|]); [|exact Logic.I]. intros os _. cbn. lia.
  Qed.

  (** ** The comparison *)
  Definition kidlen (o : obj) (f : string) : nat := match dget (o_kids o) f with Some l => length l | None => 0 end.
  Definition along (b : bool) (o : option obj) (mapping : dict string) : nat :=
    match o with Some o' => if b then list_sum (map (fun tf => kidlen o' (snd tf)) mapping) else 0 | None => 0 end.
  Definition half (b : bool) (o : option obj) : nat := if b then worth kids_named o else 0.
  Definition oks (o : option obj) : Prop := forall x, o = Some x -> ok x.
  Notation nil0 := (fun _ => 0). Notation any := (fun _ => True).
  Lemma e_here {A} (m : M dstate A) (g : A -> Prop) : (forall s, posed (ds_w s) -> posed (ds_w (fst (m s)))) -> (forall s x, snd (m s) = Ok x -> g x) -> Earn 0 (here m) nil0 g.
  Proof. intros H G. apply earn_here. intros s P. split; [now apply H|]. intros x. apply G. Qed.
  Lemma e_lift {A} (r : result A) : Earn 0 (here (lift r)) nil0 (fun x => r = Ok x).
  Proof. apply e_here; [intros s P; exact P|]. intros s x. now unfold lift. Qed.
  Lemma e_ret {A} (x : A) : Earn 0 (here (ret x)) nil0 any.
  Proof. apply e_here; trivial. Qed.
  Lemma p_incr k s : posed (ds_w s) -> posed (ds_w (fst (incr_models_processed env k s))).
  Proof. intros P. unfold incr_models_processed. destruct k; [exact P|]. cbn [fst ds_w]. now destruct (en_cb env). Qed.
  Lemma e_incr k : Earn 0 (here (incr_models_processed env k)) nil0 any.
  Proof. apply e_here; [apply p_incr|trivial]. Qed.
  Lemma e_none {A} e c (v : A -> nat) g : Earn c (here (raise e)) v g.
  Proof. intros s n P. constructor. split; [exact P|exact Logic.I]. Qed.
  Lemma e_children a b o f t : its a b -> Earn (if b then match o with Some o' => kidlen o' f | None => 0 end else 0) (c_fetch_children a o f t) (worths b) (Forall ok).
  Proof.
    intros T. destruct o as [o|]; cbn [c_fetch_children].
    - unfold kidlen. unfold getattr_kids. destruct (dget (o_kids o) f) as [l|].
      + apply (earn_bind _ _ _ _ 0 (if b then length l else 0) _ _ nil0 (fun x => Ok l = Ok x)); [apply e_lift|]. intros x [= <-]. now apply earn_uids.
      + intros s n P. unfold cbind. cbn. constructor. split; [exact P|exact Logic.I].
    - apply (earn_more _ _ _ _ 0); [|lia]. intros s n P. constructor. split; [exact P|]. cbn. split; [destruct b; cbn; lia|constructor].
  Qed.
  Section Level.
    Variable rec : list obj -> list obj -> SM dstate (list elem).
    Hypothesis REC : forall ss dd, Forall ok ss -> Forall ok dd -> Earn (worths rs ss + worths rd dd) (rec ss dd) nil0 any.
    Lemma e_types so do mapping : forall gs, Earn (along rs so mapping + along rd do mapping) (c_diff_child_types env rec so do mapping gs) nil0 any.
    Proof.
      induction mapping as [|[t f] mapping IH]; intros gs; cbn [c_diff_child_types]; [apply (earn_more _ _ _ _ 0); [apply e_ret|lia]|].
      assert (AL : forall b o, along b o ((t, f) :: mapping) = (if b then match o with Some o' => kidlen o' f | None => 0 end else 0) + along b o mapping) by (intros [] [o|]; reflexivity).
      rewrite !AL. set (R := along rs so mapping + along rd do mapping) in *. set (ks := if rs then _ else 0). set (kd := if rd then _ else 0).
      apply (earn_more _ _ _ _ (ks + (kd + R))); [|subst R; lia]. eapply earn_bind; [apply e_children; left; now split|]. intros ss OS.
      apply (earn_more _ _ _ _ (kd + (worths rs ss + R))); [|lia]. eapply earn_bind; [apply e_children; right; now split|]. intros dd OD.
      apply (earn_more _ _ _ _ (worths rs ss + worths rd dd + R)); [|lia]. eapply earn_bind; [now apply REC|]. intros es _.
      apply (earn_bind _ _ _ _ 0 R _ _ nil0 (fun x => add_elems gs es = Ok x)); [apply e_lift|]. intros gs' _. apply IH.
    Qed.
    Lemma p_for {A} (f : A -> M dstate unit) l : (forall x s, posed (ds_w s) -> posed (ds_w (fst (f x s)))) -> forall s, posed (ds_w s) -> posed (ds_w (fst (forM l f s))).
    Proof.
      intros H. induction l as [|x l IH]; intros s P; cbn [forM]; [exact P|]. unfold bind. pose proof (H x s P) as X. destruct (f x s) as [s1 [y|e]]; cbn [fst] in *; [now apply IH|exact X].
    Qed.
    Lemma p_bind {A B} (m : M dstate A) (k : A -> M dstate B) : (forall s, posed (ds_w s) -> posed (ds_w (fst (m s)))) -> (forall x s, posed (ds_w s) -> posed (ds_w (fst (k x s)))) ->
      forall s, posed (ds_w s) -> posed (ds_w (fst (bind m k s))).
    Proof. intros H K s P. unfold bind. pose proof (H s P) as X. destruct (m s) as [s1 [y|e]]; cbn [fst] in *; [now apply K|exact X]. Qed.
    Lemma e_mapping so do : oks so -> oks do -> (forall s d, so = Some s -> do = Some d -> get_type s = get_type d) ->
      Earn 0 (here (children_mapping env so do)) nil0 (fun m => along rs so m + along rd do m <= half rs so + half rd do).
    Proof.
      intros OS OD TY. assert (W : forall b o, along b (Some o) (get_children_mapping o) = half b (Some o)) by (intros [] o; reflexivity).
      apply e_here.
      - intros s P. destruct so as [so|], do as [do|]; cbn [children_mapping]; try exact P. revert s P.
        apply p_bind; [apply p_for; intros tf s P; destruct (dmem _ _); [exact P|]; revert s P; apply p_bind; [intros s P; exact P|intros n; apply p_incr]|]. intros _.
        apply p_bind; [apply p_for; intros tf s P; destruct (dmem _ _); [exact P|]; revert s P; apply p_bind; [intros s P; exact P|intros n; apply p_incr]|]. intros _ s P. exact P.
      - intros s m. destruct so as [so|], do as [do|]; cbn [children_mapping]; intros H.
        + assert (m = filter (fun tf => dmem (get_children_mapping do) (fst tf)) (get_children_mapping so)).
          { unfold bind in H. destruct (forM _ _ _) as [s1 [x|e]]; [|discriminate H]. destruct (forM _ _ _) as [s2 [x2|e2]]; [|discriminate H]. injection H as <-. reflexivity. }
          assert (EQ : get_children_mapping do = get_children_mapping so). { unfold get_children_mapping. rewrite (OS so eq_refl), (OD do eq_refl). f_equal. symmetry. exact (TY so do eq_refl eq_refl). }
          assert (FL : forall b o (p : string * string -> bool) l, along b (Some o) (filter p l) <= along b (Some o) l).
          { intros [] o p l; cbn; [|lia]. unfold list_sum. induction l as [|x l IH]; [cbn; lia|]. cbn [filter]. destruct (p x); cbn [map fold_right]; lia. }
          subst m. rewrite <- (W rs so), <- (W rd do), EQ. apply Nat.add_le_mono; apply FL.
        + injection H as <-. rewrite W. cbn. lia.
        + injection H as <-. rewrite W. cbn. lia.
        + discriminate H.
    Qed.
    Lemma e_pair so do : oks so -> oks do -> (forall s d, so = Some s -> do = Some d -> get_type s = get_type d) ->
      Earn (half rs so + half rd do) (c_diff_object_pair env rec so do) nil0 any.
    Proof.
      intros OS OD TY. unfold c_diff_object_pair. destruct (match so with Some s => Some s | None => do end) as [o|]; [|apply e_none]. set (H := half rs so + half rd do).
      apply (earn_bind _ _ _ _ 0 H _ _ nil0 (fun x => get_unique_id o = Ok x)); [apply e_lift|]. intros u _.
      apply (earn_bind _ _ _ _ 0 H _ _ nil0 (fun x => get_shortname o = Ok x)); [apply e_lift|]. intros nm _.
      destruct (skip_pair _ _ _).
      - apply (earn_bind _ _ _ _ 0 H _ _ nil0 any); [apply e_incr|]. intros _ _. apply (earn_more _ _ _ _ 0); [apply e_ret|lia].
      - apply (earn_bind _ _ _ _ 0 H _ _ nil0 any); [apply e_incr|]. intros _ _.
        eapply (earn_bind _ _ _ _ 0 H _ _ nil0); [now apply e_mapping|]. intros m LE. cbn beta in LE.
        apply (earn_more _ _ _ _ (along rs so m + along rd do m + 0)); [|subst H; lia]. eapply earn_bind; [apply e_types|]. intros gs _. cbn beta. apply e_ret.
    Qed.
    Lemma e_pairs l : (forall u so do, In (u, (so, do)) l -> oks so /\ oks do /\ forall s d, so = Some s -> do = Some d -> get_type s = get_type d) ->
      Earn (list_sum (map (fun x => half rs (fst (snd x)) + half rd (snd (snd x))) l)) (c_diff_pairs env rec l) nil0 any.
    Proof.
      induction l as [|[u [so do]] l IH]; intros H; cbn [c_diff_pairs]; [apply (earn_more _ _ _ _ 0); [apply e_ret|lia]|].
      destruct (H u so do (or_introl eq_refl)) as (OS & OD & TY). cbn [map fst snd]. change (list_sum (?x :: ?l)) with (x + list_sum l).
      set (L := list_sum _) in *. eapply earn_bind; [now apply e_pair|]. intros e _. cbn beta. apply (earn_more _ _ _ _ (L + 0)); [|lia]. eapply earn_bind.
      + apply IH. intros u' so' do' I. apply (H u'). now right.
      + intros es _. apply e_ret.
    Qed.
  End Level.
  Lemma index_total l : forall acc ds, index_by_uid l acc = Ok ds -> total kids_named (dvals ds) <= total kids_named (dvals acc) + total kids_named l.
  Proof.
    induction l as [|o l IH]; intros acc ds H; cbn [index_by_uid] in H; [injection H as <-; cbn; lia|]. destruct (get_unique_id o) as [u|]; [|discriminate H]. cbn [rbind] in H. apply IH in H.
    pose proof (total_dset kids_named acc u o). rewrite total_cons. lia.
  Qed.
  Lemma index_ok l : Forall ok l -> forall acc ds, (forall k o, dget acc k = Some o -> ok o) -> index_by_uid l acc = Ok ds -> forall k o, dget ds k = Some o -> ok o.
  Proof.
    induction 1 as [|o l O _ IH]; intros acc ds H E; cbn [index_by_uid] in E; [now injection E as <-|]. destruct (get_unique_id o) as [u|]; [|discriminate E]. cbn [rbind] in E.
    refine (IH _ _ _ E). intros k x G. destruct (String.eqb_spec k u) as [->|NE]; [rewrite dget_dset_eq in G; now injection G as <-|]. rewrite dget_dset_neq in G by congruence. eauto.
  Qed.
  Lemma half_sum b ds L : NoDup L -> list_sum (map (fun u => half b (dget ds u)) L) <= worths b (dvals ds).
  Proof. intros ND. destruct b; [exact (total_get kids_named ds L ND)|]. cbn. clear. unfold list_sum. induction L; cbn; auto. Qed.
  Lemma e_list fuel : forall ss dd, Forall ok ss -> Forall ok dd -> Earn (worths rs ss + worths rd dd) (c_diff_object_list fuel env ss dd) nil0 any.
  Proof.
    induction fuel as [|fuel IH]; intros ss dd OS OD; cbn [c_diff_object_list]; [apply e_none|]. unfold c_diff_list_body. set (N := worths rs ss + worths rd dd).
    apply (earn_bind _ _ _ _ 0 N _ _ nil0 (fun x => index_by_uid ss [] = Ok x)); [apply e_lift|]. intros ds ES.
    apply (earn_bind _ _ _ _ 0 N _ _ nil0 (fun x => index_by_uid dd [] = Ok x)); [apply e_lift|]. intros de ED. cbv zeta.
    apply (earn_bind _ _ _ _ 0 N _ _ nil0 any); [apply e_incr|]. intros _ _.
    apply (earn_bind _ _ _ _ 0 N _ _ nil0 (fun x => validate_pairs (dvals (pair_up ds de)) = Ok x)); [apply e_lift|]. intros [] EV.
    assert (LE : list_sum (map (fun x => half rs (fst (snd x)) + half rd (snd (snd x))) (pair_up ds de)) <= N).
    { rewrite pair_up_eq, map_map. cbn [fst snd]. set (K := keep_first _). assert (ND : NoDup K) by apply NoDup_keep_first.
      pose proof (half_sum rs ds K ND) as H1. pose proof (half_sum rd de K ND) as H2.
      assert (SUM : list_sum (map (fun u => half rs (dget ds u) + half rd (dget de u)) K) = list_sum (map (fun u => half rs (dget ds u)) K) + list_sum (map (fun u => half rd (dget de u)) K)).
      { clear. unfold list_sum. induction K as [|u K IH]; [reflexivity|]. cbn [map fold_right]. lia. }
      rewrite SUM. apply index_total in ES. apply index_total in ED. cbn in ES, ED. subst N. unfold worths in *. destruct rs, rd; lia. }
    apply (earn_more _ _ _ _ (list_sum (map (fun x => half rs (fst (snd x)) + half rd (snd (snd x))) (pair_up ds de)))); [|cbn; lia].
    apply e_pairs; [exact IH|]. intros u so do I. rewrite pair_up_eq in I. apply in_map_iff in I as (u' & E & I). injection E as -> <- <-.
    assert (Z : forall k o, dget (A := obj) [] k = Some o -> ok o) by discriminate.
    split; [intros x G; exact (index_ok _ OS _ _ Z ES _ _ G)|]. split; [intros x G; exact (index_ok _ OD _ _ Z ED _ _ G)|].
    intros s d GS GD. pose proof (proj1 (validate_pairs_ok _) EV s d) as C. apply C. apply in_map_iff. exists (u, (dget ds u, dget de u)). split; [cbn; congruence|].
    rewrite pair_up_eq. apply in_map_iff. now exists u.
  Qed.
  Lemma e_types_all fuel types : forall gs, Earn (2 * length types) (c_diff_types fuel env types gs) nil0 any.
  Proof.
    induction types as [|t types IH]; intros gs; cbn [c_diff_types length]; [apply (earn_more _ _ _ _ 0); [apply e_ret|lia]|]. set (R := 2 * length types).
    apply (earn_more _ _ _ _ (1 + (1 + R))); [|subst R; lia]. eapply earn_bind; [apply earn_all; left; now split|]. intros ss OS.
    apply (earn_more _ _ _ _ (1 + (worths rs ss + R))); [|lia]. eapply earn_bind; [apply earn_all; right; now split|]. intros dd OD.
    apply (earn_more _ _ _ _ (worths rs ss + worths rd dd + R)); [|lia]. eapply earn_bind; [now apply e_list|]. intros es _.
    apply (earn_bind _ _ _ _ 0 R _ _ nil0 (fun x => add_elems gs es = Ok x)); [apply e_lift|]. intros gs' _. apply IH.
  Qed.
  Lemma e_skipped dtop stop : Earn (length (symmetric_difference dtop stop)) (c_count_skipped env dtop stop) nil0 any.
  Proof.
    unfold c_count_skipped. rewrite <- (Nat.mul_1_l (length _)). apply earn_for. intros t. destruct (smem t dtop); [|destruct (smem t stop)].
    - apply (earn_bind _ _ _ _ 1 0 _ _ (worths rd) (Forall ok)); [apply earn_all; right; now split|]. intros l _. apply (earn_more _ _ _ _ 0); [apply e_incr|lia].
    - apply (earn_bind _ _ _ _ 1 0 _ _ (worths rs) (Forall ok)); [apply earn_all; left; now split|]. intros l _. apply (earn_more _ _ _ _ 0); [apply e_incr|lia].
    - apply (earn_more _ _ _ _ 0); [apply e_ret|lia].
  Qed.
  Lemma e_calculate fuel dc dtop stop : Earn (length (symmetric_difference dtop stop) + 2 * length (intersection dtop stop)) (c_calculate_diffs fuel env dc dtop stop) nil0 any.
  Proof.
    unfold c_calculate_diffs. eapply earn_bind; [apply e_skipped|]. intros [] _. cbn beta. set (N := 2 * length _). apply (earn_more _ _ _ _ (N + 0)); [|lia]. eapply earn_bind; [apply e_types_all|].
    intros gs _. apply e_here; [intros s P; exact P|trivial].
  Qed.
End Differ.

(** ** The types *)
Lemma filter_both {A} (p : A -> bool) l : length (filter p l) + length (filter (fun x => negb (p x)) l) = length l.
Proof. induction l as [|x l IH]; [reflexivity|]. cbn [filter]. destruct (p x); cbn [negb length]; lia. Qed.
Lemma types_count dtop stop : NoDup dtop -> length (symmetric_difference dtop stop) + 2 * length (intersection dtop stop) <= length dtop + length stop.
Proof.
  intros ND. assert (S : length (symmetric_difference dtop stop) <= length (filter (fun x => negb (smem x stop)) dtop ++ filter (fun x => negb (smem x dtop)) stop)).
  { unfold symmetric_difference. rewrite (Permutation_length (ssort_perm _)). apply NoDup_incl_length; [apply NoDup_sdedup|]. intros x. now rewrite In_sdedup. }
  rewrite app_length in S. pose proof (filter_both (fun x => smem x stop) dtop) as A. pose proof (filter_both (fun x => smem x dtop) stop) as B.
  assert (I : length (filter (fun x => smem x stop) dtop) <= length (filter (fun x => smem x dtop) stop)).
  { apply NoDup_incl_length; [now apply NoDup_filter|]. intros x. rewrite !filter_In, !smem_In. tauto. }
  unfold intersection. lia.
Qed.

(** ** The call *)
Lemma talk_scan_inv {A} pat f l (q : cprog A) : talk (CScan pat f) l q -> (l = [] /\ forall x, q <> Done x) \/ exists x l', l = WScan pat x :: l' /\ talk (f x) l' q.
Proof. inversion 1; subst; [left; now split|]. right. eauto. Qed.
Definition redis_or_not (b : bool) : nat := if b then 1 else 0.
Lemma count_talk {A} a w b (k : nat -> CM A) l q : store_kind a w b -> talk (cbind (c_count_all a) k w) l q ->
  ((l = [] /\ forall x, q <> Done x) \/ exists n l', talk (k n w) l' q /\ length l = redis_or_not b + length l' /\ (forall m, skipn (redis_or_not b + m) l = skipn m l') /\ children_read l = children_read l' /\ (forall k o, In (WGet k o) l' -> In (WGet k o) l)).
Proof.
  intros (ad & E & K) T. unfold cbind, c_count_all in T. rewrite E in T. destruct (ad_store ad) as [d|i]; subst b; cbn [cthen fst snd] in T.
  - right. eexists _, l. split; [exact T|]. now repeat split.
  - apply talk_scan_inv in T as [T|(x & l' & -> & T)]; [now left|]. right. eexists _, l'. split; [exact T|]. split; [reflexivity|]. split; [reflexivity|]. split; [reflexivity|]. intros k' o I. now right.
Qed.
Lemma pay_both l : list_sum (map (pay kids_named 1) l) = keys_listed l + children_read l.
Proof.
  unfold keys_listed, children_read, list_sum. induction l as [|m l IH]; [reflexivity|]. cbn [map fold_right]. rewrite IH. destruct m as [k [o|]|k o|k b|k|k ks]; cbn [pay]; lia.
Qed.
Lemma pays_done {A} (ok : obj -> Prop) cr sc (post : A -> nat -> Prop) (p : cprog A) l x : talk p l (Done x) -> (forall k o, In (WGet k (Some o)) l -> ok o) ->
  forall n, pays ok cr sc post n p -> exists b, post x b.
Proof.
  intros T. remember (Done x) as q eqn:E. induction T as [p|k f y l q T IH|k o p l q T IH|k f b l q T IH|k p l q T IH|pat f y l q T IH]; intros OK n P; subst.
  { inversion P; subst; eauto. }
  all: assert (OK' : forall k o, In (WGet k (Some o)) l -> ok o) by (intros k' o' I'; eapply OK; right; exact I'); inversion P; subst; clear P.
  1: destruct y as [o|]; [assert (OO : ok o) by (eapply OK; left; reflexivity)|].
  all: eapply IH; eauto.
Qed.
Lemma talk_cut {A B} (p : cprog A) (g : A -> cprog B) l q : talk (cthen p g) l q -> (exists q', talk p l q') \/ exists x l1 l2, l = l1 ++ l2 /\ talk p l1 (Done x) /\ talk (g x) l2 q.
Proof.
  revert l. induction p as [x|k f IH|k o p IH|k f IH|k p IH|pat f IH]; cbn [cthen]; intros l T; [right; exists x, [], l; split; [reflexivity|]; split; [constructor|exact T]|..].
  all: inversion T; subst; clear T; [left; eexists; constructor|].
  all: match goal with H : talk _ _ _ |- _ => apply IH in H as [(q' & T0)|(y & l1 & l2 & -> & T1 & T2)] end; [left; eexists; constructor; exact T0|right].
  all: match goal with |- exists x a b, ?m :: _ = _ /\ _ => exists y, (m :: l1), l2 end; (split; [reflexivity|]); (split; [constructor; exact T1|exact T2]).
Qed.
Lemma talk_then {A B} (p : cprog A) (g : A -> cprog B) l x : talk p l (Done x) -> talk (cthen p g) l (g x).
Proof. intros T. remember (Done x) as q eqn:E. induction T; subst; cbn [cthen]; constructor; auto. Qed.
Lemma from_cost kinds fuel dst src dc flags cb w sa da rs rd l q : nth_error (w_ads w) src = Some sa -> nth_error (w_ads w) dst = Some da ->
  store_kind src w rs -> store_kind dst w rd -> NoDup (ad_top da) -> (forall r o, nth_error (w_heap w) r = Some o -> by_type kinds o) ->
  (forall k o, In (WGet k (Some o)) l -> by_type kinds o) -> talk (c_diff_from fuel dst src dc flags cb w) l q ->
  (let c := redis_or_not rs + redis_or_not rd in length l <= c + (length (ad_top da) + length (ad_top sa)) + keys_listed (skipn c l) + children_read l) /\
  forall w' x, q = Done (w', x) -> store_kind dst w' rd.
Proof.
  intros ES ED KS KD ND HO RO T. cbv zeta.
  unfold c_diff_from in T. unfold cbind at 1 in T. cbn [here cthen] in T. assert (GS : get_adapter src w = (w, Ok sa)) by (unfold get_adapter; now rewrite ES). rewrite GS in T. cbn [fst snd] in T.
  unfold cbind at 1 in T. cbn [here cthen] in T. assert (GD : get_adapter dst w = (w, Ok da)) by (unfold get_adapter; now rewrite ED). rewrite GD in T. cbn [fst snd] in T.
  apply (count_talk src w rs _ _ _ KS) in T as [[-> NQ]|(n & l1 & T & L1 & S1 & C1 & I1)]; [split; [cbn; lia|]; intros w' x E; now destruct (NQ (w', x))|].
  apply (count_talk dst w rd _ _ _ KD) in T as [[-> NQ]|(m & l2 & T & L2 & S2 & C2 & I2)]; [split; [cbn in L1; lia|]; intros w' x E; now destruct (NQ (w', x))|].
  cbv zeta in T. set (env := mkEnv src dst flags (n + m) cb (ad_name sa) (ad_name da)) in *.
  assert (P : posed env kinds rs rd w) by (split; [exact KS|]; split; [exact KD|exact HO]).
  pose proof (e_calculate env kinds rs rd fuel dc (ad_top da) (ad_top sa) (mkDS w 0) 0 P) as E. set (B := _ + _ + 0) in E.
  assert (X : pays (by_type kinds) kids_named 1 (fun wx _ => store_kind dst (fst wx) rd) B (cthen (c_calculate_diffs fuel env dc (ad_top da) (ad_top sa) (mkDS w 0)) (fun r => Done (ds_w (fst r), snd r)))).
  { eapply pays_then; [exact E|]. intros r b [K _]. constructor. exact (proj1 (proj2 K)). }
  assert (RO2 : forall k o, In (WGet k (Some o)) l2 -> by_type kinds o) by (intros k o I; apply (RO k), I1, I2, I). split.
  - apply (pays_talk _ _ _ _ _ _ _ T) in X; [|exact RO2]. rewrite pay_both in X. pose proof (types_count (ad_top da) (ad_top sa) ND) as TC.
    rewrite S1. replace (redis_or_not rd) with (redis_or_not rd + 0) at 2 by lia. rewrite S2. cbn [skipn]. rewrite C1, C2. subst B. lia.
  - intros w' x EQ. rewrite EQ in T. destruct (pays_done _ _ _ _ _ _ _ T RO2 _ X) as (b & K). exact K.
Qed.
Lemma diff_cost kinds fuel dst src dc flags cb w sa da rs rd l q : nth_error (w_ads w) src = Some sa -> nth_error (w_ads w) dst = Some da ->
  store_kind src w rs -> store_kind dst w rd -> NoDup (ad_top da) -> (forall r o, nth_error (w_heap w) r = Some o -> by_type kinds o) ->
  (forall k o, In (WGet k (Some o)) l -> by_type kinds o) -> talk (issued dst (KDiff fuel src dc flags cb) w) l q ->
  let c := redis_or_not rs + redis_or_not rd in length l <= c + (length (ad_top da) + length (ad_top sa)) + keys_listed (skipn c l) + children_read l.
Proof.
  intros ES ED KS KD ND HO RO T. cbn [issued] in T. unfold cfmap, cbind in T.
  assert (T' : exists q', talk (c_diff_from fuel dst src dc flags cb w) l q').
  { apply talk_cut in T as [T|(x & l1 & l2 & -> & T1 & T2)]; [exact T|]. destruct (snd x); inversion T2; subst; rewrite app_nil_r; eauto. }
  destruct T' as (q' & T'). exact (proj1 (from_cost kinds fuel dst src dc flags cb w sa da rs rd l q' ES ED KS KD ND HO RO T')).
Qed.
(** A synchronisation that computes its diff *)
Lemma sync_whole kinds fuel h dst src dc flags cb w sa da rs l q : nth_error (w_ads w) src = Some sa -> nth_error (w_ads w) dst = Some da ->
  store_kind src w rs -> store_kind dst w true -> NoDup (ad_top da) -> (forall r o, nth_error (w_heap w) r = Some o -> by_type kinds o) ->
  (forall k o, In (WGet k (Some o)) l -> by_type kinds o) -> read_plainly l -> talk (issued dst (KSync fuel h src dc flags cb None) w) l q ->
  exists l1 l2, l = l1 ++ l2 /\ (let c := redis_or_not rs + 1 in length l1 <= c + (length (ad_top da) + length (ad_top sa)) + keys_listed (skipn c l1) + children_read l1) /\
    (l2 = [] \/ exists w' d, talk (issued dst (KDiff fuel src dc flags cb) w) l1 (Done (w', Ok (RDiff d))) /\ length l2 <= 5 * diff_len d).
Proof.
  intros ES ED KS KD ND HO RO RP T. cbn [issued] in T. unfold cfmap, cbind at 1 in T.
  assert (T' : exists q', talk (c_sync_from fuel (unseeing h) dst src dc flags cb None w) l q').
  { apply talk_cut in T as [T|(x & l1 & l2 & -> & T1 & T2)]; [exact T|]. destruct (snd x); inversion T2; subst; rewrite app_nil_r; eauto. }
  clear T q. destruct T' as (q & T). unfold c_sync_from, cbind at 1 in T. cbn [here cthen ret fst snd] in T. unfold cbind at 1 in T.
  apply talk_cut in T as [(q' & T)|([w' [d|e]] & l1 & l2 & -> & T1 & T2)].
  - exists l, []. split; [now rewrite app_nil_r|]. split; [|now left]. exact (proj1 (from_cost kinds fuel dst src dc flags cb w sa da rs true l q' ES ED KS KD ND HO RO T)).
  - destruct (from_cost kinds fuel dst src dc flags cb w sa da rs true l1 _ ES ED KS KD ND HO (fun k o I => RO k o (in_or_app _ _ _ (or_introl I))) T1) as [L1 K1].
    exists l1, l2. split; [reflexivity|]. split; [exact L1|]. right. exists w', d. split; [cbn [issued]; unfold cfmap, cbind; exact (talk_then _ _ _ _ T1)|]. cbn [fst snd] in T2.
    assert (R : to_redis dst w'). { destruct (K1 w' (Ok d) eq_refl) as (ad & E & K). destruct (ad_store ad) as [|i] eqn:AS; [discriminate K|]. now exists ad, i. }
    assert (H : pays plainly (fun _ => 0) 0 (fun _ _ => True) (5 * diff_len d) (c_run_sync (mkSEnv src dst flags (diff_len d) cb (unseeing h) fuel) d w')).
    { unfold c_run_sync, cbind at 1. eapply pays_then with (post := fun _ _ => True); [|intros [w2 [x|x]] k _; now constructor]. eapply pays_then with (post := fun _ _ => True); [|intros x k _; now constructor].
      pose proof (k_perform (mkSEnv src dst flags (diff_len d) cb (unseeing h) fuel) d (mkSS w' 0 None None None) 0 R) as X. rewrite Nat.add_0_r in X. eapply pays_post; [exact X|trivial]. }
    apply (pays_talk _ _ _ _ _ _ _ T2) in H; [|intros k o I; apply (RP k), in_or_app; now right]. rewrite pay_none in H. lia.
  - destruct (from_cost kinds fuel dst src dc flags cb w sa da rs true l1 _ ES ED KS KD ND HO (fun k o I => RO k o (in_or_app _ _ _ (or_introl I))) T1) as [L1 _].
    exists l1, l2. split; [reflexivity|]. split; [exact L1|]. left. cbn [fst snd] in T2. now inversion T2.
Qed.
