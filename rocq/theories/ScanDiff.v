(** * ScanDiff: reads and diffs when the server answers SCAN as it likes. *)
From Coq Require Import Lia.
From Verif Require Export ScanFacts.
From Verif Require Import DiffFacts DataSpec PureDiffer FaithFacts DifferLast RedisFacts DataFacts DataOrder.

(** ** Loading the keys of a listing *)
Definition loaded (d : dict obj) (a : aid) (k : string) (o : obj) : Prop := exists o0, dget d k = Some o0 /\ o = set_o_adapter o0 (Some a).
Lemma loads_ok (d : dict obj) a l : (forall k, In k l -> In k (dkeys d)) ->
  exists os, rmapM (fun k => match dget d k with Some o => Ok (set_o_adapter o (Some a)) | None => Err ObjectNotFound end) l = Ok os /\ Forall2 (loaded d a) l os.
Proof.
  induction l as [|k l IH]; intros H; [exists []; split; [reflexivity|constructor]|]. destruct IH as (os & E & F); [intros k' I; apply H; now right|].
  assert (I : In k (dkeys d)) by (apply H; now left). apply dmem_In in I. unfold dmem in I. destruct (dget d k) as [o|] eqn:G; [|discriminate].
  exists (set_o_adapter o (Some a) :: os). split; [cbn [rmapM]; rewrite G; cbn [rbind]; now rewrite E|]. constructor; [now exists o|exact F].
Qed.
Lemma loads_same (d : dict obj) a l l' os os' : listing l l' -> Forall2 (loaded d a) l os -> Forall2 (loaded d a) l' os' -> forall o, In o os <-> In o os'.
Proof.
  intros L F F' o. assert (X : forall l l' os os', listing l l' -> Forall2 (loaded d a) l os -> Forall2 (loaded d a) l' os' -> In o os -> In o os').
  { clear. intros l l' os os' L F F' I. destruct (Forall2_in_r _ _ _ _ F I) as (k & Ik & (o0 & G & ->)). apply L in Ik. destruct (Forall2_in_l _ _ _ _ F' Ik) as (o' & I' & (o1 & G' & ->)).
    rewrite G in G'. now injection G' as <-. }
  split; [now apply (X l l')|apply (X l' l); auto using listing_sym].
Qed.
Lemma listed_keys l pat (d : dict obj) : listing l (filter (glob pat) (dkeys d)) -> forall k, In k l -> In k (dkeys d).
Proof. intros L k I. apply L, filter_In in I. apply I. Qed.

(** ** Parts of a diff *)
Definition relisted (r0 r : result (list obj)) : Prop :=
  match r0, r with
  | Ok os0, Ok os => forall o, In o os <-> In o os0
  | Err e0, Err e => e = e0
  | _, _ => False
  end.
Lemma relisted_refl r : relisted r r.
Proof. destruct r as [os|e]; cbn; [intros o; reflexivity|reflexivity]. Qed.
(** [P c r]: [c] models were counted and the result is [r] *)
Definition loosely (w : world) {A} (c : SM dstate A) (P : nat -> result A -> Prop) : Prop :=
  forall s, w_redis (ds_w s) = [] -> read_only w (set_redis (ds_w s) (w_redis w)) ->
  forall d' s' r, louts (c s) (w_redis w) d' (s', r) ->
    d' = w_redis w /\ w_redis (ds_w s') = [] /\ read_only w (set_redis (ds_w s') (w_redis w)) /\ exists c, ds_n s' = ds_n s + c /\ P c r.
Lemma loosely_bind w {A B} (m : SM dstate A) (k : A -> SM dstate B) P Q : loosely w m P -> (forall c x, P c (Ok x) -> loosely w (k x) (fun c' => Q (c + c'))) ->
  (forall c e, P c (Err e) -> Q c (Err e)) -> loosely w (cbind m k) Q.
Proof.
  intros H K E s S R d' s' r L. apply louts_bind in L as (d1 & s1 & r1 & L1 & L2). apply (H s S R) in L1 as (-> & S1 & R1 & c & C1 & P1). destruct r1 as [x|e].
  - destruct (K c x P1 s1 S1 R1 d' s' r L2) as (-> & S2 & R2 & c' & C2 & P2). do 3 (split; [auto|]). exists (c + c'). split; [lia|exact P2].
  - destruct L2 as (-> & -> & ->). do 3 (split; [auto|]). exists c. auto.
Qed.
Lemma loosely_weaken w {A} (c : SM dstate A) (P Q : nat -> result A -> Prop) : loosely w c P -> (forall c r, P c r -> Q c r) -> loosely w c Q.
Proof. intros H I s S R d' s' r L. destruct (H s S R _ _ _ L) as (? & ? & ? & k & ? & ?). do 3 (split; [auto|]). exists k. auto. Qed.
(** a state at which the program is even *)
Lemma even_at env w {A} (m : M dstate A) c p s d' s' r : dsim m c -> PureDiffer.sim env w m p -> even (c s) ->
  w_redis (ds_w s) = [] -> read_only w (set_redis (ds_w s) (w_redis w)) -> louts (c s) (w_redis w) d' (s', r) ->
  d' = w_redis w /\ w_redis (ds_w s') = [] /\ read_only w (set_redis (ds_w s') (w_redis w)) /\ ds_n s' = ds_n s + list_sum (fst p) /\ r = snd p.
Proof.
  intros H Q EV S R L. apply (even_louts _ EV) in L. rewrite (H s (w_redis w) S) in L. specialize (Q (at_server ds_w dsw s (w_redis w)) R). destruct Q as (E & NN & _ & RO).
  destruct (m (at_server ds_w dsw s (w_redis w))) as [s1 r1]. cbn [fst snd] in *. injection L as <- <- <-.
  assert (RW : read_only w (ds_w s1)) by (eapply read_only_trans; [exact R|exact RO]). pose proof (proj1 (proj2 RW)) as X.
  split; [exact X|]. split; [reflexivity|]. split; [unfold at_server, dsw; cbn [ds_w]; rewrite redis_twice, <- X, redis_eta; exact RW|]. split; [exact NN|exact E].
Qed.
Lemma loosely_even env w {A} (m : M dstate A) c p : dsim m c -> PureDiffer.sim env w m p -> ceven c -> loosely w c (fun c r => c = list_sum (fst p) /\ r = snd p).
Proof. intros H Q EV s S R d' s' r L. destruct (even_at env w m c p s d' s' r H Q (EV s) S R L) as (? & ? & ? & ? & ?). do 3 (split; [auto|]). exists (list_sum (fst p)). auto. Qed.
Lemma loosely_here env w {A} (m : M dstate A) p : dblind m -> PureDiffer.sim env w m p -> loosely w (here m) (fun c r => c = list_sum (fst p) /\ r = snd p).
Proof. intros B Q. apply (loosely_even env w m); [now apply dhere|exact Q|apply ceven_here]. Qed.

Definition fetched (a : aid) (l : list string) : M dstate (list obj) := bind (dlift (mapM (redis_load a) l)) (fun rs => dlift (mapM hget rs)).
Definition c_fetched (a : aid) (l : list string) : SM dstate (list obj) := cbind (cdlift (cmapM (c_load a) l)) (fun rs => here (dlift (mapM hget rs))).
Lemma sim_fetched a l : dsim (fetched a l) (c_fetched a l).
Proof. apply dbind; [apply sim_dlift, ConcFacts.sim_map; intros k; apply ConcFacts.sim_load|]. intros rs. apply dhere, blind_dlift, blind_map. intros r. apply blind_hget. Qed.
Lemma even_fetched a l : ceven (c_fetched a l).
Proof. apply ceven_bind; [apply ceven_dlift, ceven_map; intros k; apply ceven_load|intros rs; apply ceven_here]. Qed.
Lemma fetched_eq env w a l : PureDiffer.sim env w (fetched a l) (wlift (rmapM (fun k => match dget (w_redis w) k with Some o => Ok (set_o_adapter o (Some a)) | None => Err ObjectNotFound end) l)).
Proof.
  intros [w1 n] R. cbn [ds_w] in R. pose proof (proj1 (proj2 R)) as X. destruct (redis_loads a l w1) as (news & rs & r & E & Y). rewrite X in Y.
  unfold fetched, bind. rewrite (dlift_eq _ (mkDS w1 n) (set_heap w1 (w_heap w1 ++ news)) r E). cbn [ds_n].
  match type of Y with context [rmapM ?f ?l] => destruct (rmapM f l) as [os|e] end.
  - destruct Y as (-> & -> & ->). unfold dlift. cbn [ds_w ds_n]. rewrite mapM_hget. cbn [fst snd]. rewrite (deref_seq _ (w_heap w1)) by reflexivity. split; [reflexivity|].
    split; [cbn; lia|]. split; [cbn; now destruct (en_cb env); rewrite ?app_nil_r|apply read_only_news].
  - subst r. split; [reflexivity|]. split; [cbn; lia|]. split; [cbn; now destruct (en_cb env); rewrite ?app_nil_r|apply read_only_news].
Qed.
Lemma loosely_fetch_all (env : denv) w a t : w_ok w -> loosely w (c_fetch_all a t) (fun c r => c = 0 /\ relisted (objs_all w a t) r).
Proof.
  intros OK s S R d' s' r L. destruct (nth_error (w_ads (ds_w s)) a) as [ad|] eqn:E.
  2:{ assert (EV : even (c_fetch_all a t s)) by (unfold c_fetch_all, cbind, cdlift, c_get_all, here, get_adapter, cbind; cbn [cthen fst snd]; rewrite E; cbn [cthen fst snd]; constructor).
      destruct (even_at env w _ _ _ _ _ _ _ (ConcSync.sim_fetch_all a t) (PureDiffer.sim_fetch_all env w a t OK) EV S R L) as (? & ? & ? & NN & ->).
      do 3 (split; [assumption|]). exists 0. split; [exact NN|]. split; [reflexivity|apply relisted_refl]. }
  destruct (ad_store ad) as [dl|sid] eqn:ES.
  - assert (EV : even (c_fetch_all a t s)).
    { unfold c_fetch_all. apply even_then; [|intros [s1 [x|e]]; constructor]. apply even_then; [|intros x; constructor].
      unfold c_get_all, cbind at 1, here at 1, get_adapter. cbn [cthen]. rewrite E. cbn [fst snd]. rewrite ES. constructor. }
    destruct (even_at env w _ _ _ _ _ _ _ (ConcSync.sim_fetch_all a t) (PureDiffer.sim_fetch_all env w a t OK) EV S R L) as (? & ? & ? & NN & ->).
    do 3 (split; [assumption|]). exists 0. split; [exact NN|]. split; [reflexivity|apply relisted_refl].
  - assert (C : c_fetch_all a t s = CScan (store_label sid ++ ":" ++ t ++ ":*")%string (fun l => c_fetched a l s)).
    { unfold c_fetch_all, c_fetched, c_get_all, cbind at 1, cdlift at 1, cbind at 1, here at 1, get_adapter. cbn [cthen]. rewrite E. cbn [fst snd]. rewrite ES. reflexivity. }
    rewrite C in L. cbn [louts] in L. destruct L as (l & LI & L).
    destruct (even_at env w _ _ _ _ _ _ _ (sim_fetched a l) (fetched_eq env w a l) (even_fetched a l s) S R L) as (? & ? & ? & NN & ->).
    do 3 (split; [assumption|]). exists 0. split; [exact NN|]. split; [reflexivity|]. cbn [wlift snd].
    assert (EA : exists ad0, nth_error (w_ads w) a = Some ad0 /\ ad_store ad0 = SRedis sid).
    { destruct R as (_ & _ & RA). pose proof (Forall2_nth _ _ _ a RA) as X. cbn [w_ads set_redis] in X. destruct (nth_error (w_ads w) a) as [ad0|]; [|congruence].
      destruct X as (y & Y & s0 & -> & X). rewrite E in Y. injection Y as ->. exists ad0. split; [reflexivity|]. cbn [ad_store set_ad_store] in ES. subst s0. destruct (ad_store ad0); cbn in X; [contradiction|now subst]. }
    destruct EA as (ad0 & EA & ES0). unfold objs_all. rewrite EA, ES0. unfold scan.
    destruct (loads_ok (w_redis w) a l (listed_keys _ _ _ LI)) as (os & -> & F).
    destruct (loads_ok (w_redis w) a _ (listed_keys _ _ _ (listing_refl (filter (glob (store_label sid ++ ":" ++ t ++ ":*")%string) (dkeys (w_redis w)))))) as (os' & X & F').
    cbn in X |- *. rewrite X. cbn. exact (loads_same _ _ _ _ _ _ LI F F').
Qed.

(** ** Lists that are read more than once *)
Lemma index_vals (ds : dict obj) : NoDup (dkeys ds) -> (forall u o, In (u, o) ds -> get_unique_id o = Ok u) ->
  forall acc, (forall u, In u (dkeys ds) -> ~ In u (dkeys acc)) -> index_by_uid (dvals ds) acc = Ok (acc ++ ds).
Proof.
  induction ds as [|[u o] ds IH]; intros N U acc D; [cbn; now rewrite app_nil_r|]. inversion N as [|? ? N1 N2]; subst. cbn [dvals map snd index_by_uid].
  rewrite (U u o) by now left. cbn [rbind].
  assert (X : dset acc u o = acc ++ [(u, o)]).
  { assert (NI : ~ In u (dkeys acc)) by (apply D; now left). clear - NI. induction acc as [|[k v] acc IH]; [reflexivity|]. cbn [dset].
    destruct (String.eqb_spec u k) as [->|NE]; [exfalso; apply NI; now left|]. cbn. f_equal. apply IH. intros I. apply NI. now right. }
  fold (dvals ds). rewrite X, IH; [now rewrite <- app_assoc|exact N2|intros u' o' I; apply U; now right|].
  intros u' I. unfold dkeys. rewrite map_app, in_app_iff. cbn. intros [J|[->|[]]]; [apply (D u'); [now right|exact J]|contradiction].
Qed.
Lemma relist_near ss us ss' : map get_unique_id ss = map Ok us -> NoDup us -> (forall o, In o ss' <-> In o ss) ->
  exists ds, index_by_uid ss' [] = Ok ds /\ index_by_uid (dvals ds) [] = Ok ds /\ Permutation ss (dvals ds) /\ length (dvals ds) <= length ss'.
Proof.
  intros E N I.
  assert (E' : exists us', map get_unique_id ss' = map Ok us').
  { assert (X : forall o, In o ss' -> exists u, get_unique_id o = Ok u).
    { intros o J. apply I in J. apply (in_map get_unique_id) in J. rewrite E in J. apply in_map_iff in J as (u & U & _). now exists u. }
    clear - X. induction ss' as [|o ss' IH]; [now exists []|]. destruct IH as [us' E]; [intros o' J; apply X; now right|]. destruct (X o) as [u U]; [now left|].
    exists (u :: us'). cbn [map]. now rewrite U, E. }
  destruct E' as [us' E']. destruct (index_ok ss' us' [] E') as (ds & X & K & G). cbn [dkeys map app] in K. exists ds. split; [exact X|].
  destruct (index_spec ss' us' ds E' X) as [K' G'].
  assert (NK : NoDup (dkeys ds)) by (rewrite K'; apply NoDup_keep_first).
  assert (UN : forall o o', In o ss -> In o' ss -> get_unique_id o = get_unique_id o' -> o = o').
  { clear - E N. revert us E N. induction ss as [|x ss IH]; intros [|u us] E N o o' I J Q; try discriminate; [destruct I|]. cbn [map] in E. injection E as E1 E2. inversion N as [|? ? N1 N2]; subst.
    assert (Z : forall y, In y ss -> get_unique_id y <> Ok u).
    { intros y Iy Uy. apply (in_map get_unique_id) in Iy. rewrite E2, Uy in Iy. apply in_map_iff in Iy as (v & V & Iv). injection V as ->. contradiction. }
    destruct I as [->|I], J as [->|J]; auto.
    - exfalso. apply (Z o' J). congruence. - exfalso. apply (Z o I). congruence. - now apply (IH us). }
  assert (UD : forall u o, In (u, o) ds -> In o ss' /\ get_unique_id o = Ok u).
  { intros u o J. apply with_uid_Some. rewrite <- G'. now apply In_dget. }
  split; [apply (index_vals ds NK (fun u o J => proj2 (UD u o J)) []); intros u _ []|].
  assert (LE : length (dvals ds) <= length ss').
  { unfold dvals. rewrite map_length, <- (map_length fst). fold (dkeys ds). rewrite K', <- (map_length get_unique_id ss'), E', map_length. apply NoDup_incl_length; [apply NoDup_keep_first|intros u J; now apply In_keep_first]. }
  split; [|exact LE]. apply NoDup_Permutation.
  - clear - E N. apply (NoDup_map_inv get_unique_id). rewrite E. apply FinFun.Injective_map_NoDup; [intros x y Q; now injection Q|exact N].
  - assert (Q : map get_unique_id (dvals ds) = map Ok (dkeys ds)).
    { clear - UD. induction ds as [|[u o] ds IH]; [reflexivity|]. cbn. rewrite (proj2 (UD u o (or_introl eq_refl))). f_equal. apply IH. intros u' o' J. apply UD. now right. }
    apply (NoDup_map_inv get_unique_id). rewrite Q. apply FinFun.Injective_map_NoDup; [intros x y Z; now injection Z|exact NK].
  - intros o. split.
    + intros J. pose proof J as Iss. apply I in J. destruct (get_unique_id o) as [u|] eqn:U; [|apply (in_map get_unique_id) in J; rewrite E', U in J; apply in_map_iff in J as (? & ? & _); discriminate].
      assert (Iu : In u us') by (apply (in_map get_unique_id) in J; rewrite E', U in J; apply in_map_iff in J as (v & V & Iv); now injection V as ->).
      destruct (with_uid_In u ss' us' E' Iu) as (o' & W). pose proof W as W'. rewrite <- G' in W'. apply with_uid_Some in W as [J' U'].
      assert (o = o') as -> by (apply UN; [exact Iss|now apply I|congruence]). apply in_map_iff. exists (u, o'). split; [reflexivity|]. now apply dget_Some_In.
    + intros J. apply in_map_iff in J as ([u o'] & Q & J). cbn in Q. subst o'. apply I. apply (UD u o J).
Qed.
Lemma plist_index flags sn dn rs rd n ss ss1 dd dd1 : index_by_uid ss1 [] = index_by_uid ss [] -> index_by_uid dd1 [] = index_by_uid dd [] ->
  length ss <= length ss1 -> length dd <= length dd1 ->
  snd (plist flags sn dn rs rd n ss1 dd1) = snd (plist flags sn dn rs rd n ss dd) /\
  list_sum (fst (plist flags sn dn rs rd n ss dd)) <= list_sum (fst (plist flags sn dn rs rd n ss1 dd1)).
Proof.
  intros E F L1 L2. destruct n as [|n]; [split; reflexivity|]. cbn [plist]. unfold plist_body. rewrite E, F. destruct (index_by_uid ss []) as [ds|]; [|split; reflexivity]. destruct (index_by_uid dd []) as [de|]; [|split; reflexivity].
  unfold wbind, wlift, wtick. cbn [fst snd]. assert (X : forall k, list_sum (@fst (list nat) (result unit) ([k], Ok tt)) = k) by (intros k; cbn; lia).
  destruct (validate_pairs _) as [[]|]; cbn [fst snd app list_sum fold_right]; [|split; [reflexivity|lia]]. destruct (ppairs _ _ _ _ _ _ _) as [ks r]; cbn [fst snd app list_sum fold_right]. split; [reflexivity|].
  change (fold_right Init.Nat.add 0 ks) with (list_sum ks). lia.
Qed.

Section Diff.
  Context (w : world) (src dst : aid) (sa da : adapter) (ls ld : list entry) (OK : w_ok w).
  Context (HS : has_entries w src sa ls) (HD : has_entries w dst da ld) (KS : own_keys ls) (KD : own_keys ld) (PS : plain_types sa ls) (PDD : plain_types da ld).
  Context (flags : N) (n : nat).
  Notation faith := (faithful flags (ad_name sa) (ad_name da) (objs_by w src) (objs_by w dst) n).
  Notation comp := (plist flags (ad_name sa) (ad_name da) (objs_by w src) (objs_by w dst) n).

  Lemma all_once a ad l t : has_entries w a ad l -> own_keys l -> plain_types ad l -> plain t = true ->
    exists os us, objs_all w a t = Ok os /\ map get_unique_id os = map Ok us /\ NoDup us /\ sound plainT os.
  Proof.
    intros H K P Pt. pose proof (holds_all w a ad l t H Pt) as A. destruct (objs_all w a t) as [os|] eqn:E; [|contradiction]. cbn in A.
    exists os, (map (fun e : entry => snd (fst e)) (filter (of_type t) l)). split; [reflexivity|]. split; [|split].
    - unfold sall in A. destruct K as [K _]. clear - A K. assert (K' : forall e, In e (filter (of_type t) l) -> get_unique_id (snd e) = Ok (snd (fst e))) by (intros e I; apply filter_In in I; now apply K).
      revert K' A. generalize (filter (of_type t) l) as m. intros m. revert os. induction m as [|e m IH]; intros os K' A; inversion A as [|o ? os' ? G A']; subst; [reflexivity|]. cbn [map].
      rewrite <- (agrees_uid _ _ G), (K' e) by now left. f_equal. apply IH; [intros e' I; apply K'; now right|exact A'].
    - destruct K as [_ K]. clear - K. induction l as [|e l IH]; cbn [filter map]; [constructor|]. cbn [map] in K. inversion K as [|? ? K1 K2]; subst. destruct (of_type t e) eqn:T; [|now apply IH].
      cbn [map]. constructor; [|now apply IH]. intros I. apply in_map_iff in I as (e' & Q & I). apply filter_In in I as [I T']. apply K1. apply in_map_iff. exists e'. split; [|exact I].
      unfold of_type in T, T'. apply String.eqb_eq in T. apply String.eqb_eq in T'. destruct e as [[a b] c], e' as [[a' b'] c']. cbn in *. congruence.
    - assert (SH : shuffled l l) by (exists l; split; [reflexivity|apply PureDiffer.Forall2_refl; intros e; split; [reflexivity|apply near_refl]]).
      exact (proj1 (near_all w w a a ad ad l l H H SH K P t os Pt E)).
  Qed.
  Lemma reads_same a ad l : has_entries w a ad l -> own_keys l -> plain_types ad l -> reads_near plainT (objs_by w a) (objs_by w a).
  Proof.
    intros H K P. assert (SH : shuffled l l) by (exists l; split; [reflexivity|apply PureDiffer.Forall2_refl; intros e; split; [reflexivity|apply near_refl]]).
    exact (near_by w w a a ad ad l l H H SH K P).
  Qed.

  (** reading lists of a type in any way *)
  Lemma relist a ad l t ss' : has_entries w a ad l -> own_keys l -> plain_types ad l -> plain t = true -> relisted (objs_all w a t) (Ok ss') ->
    exists ss ds, objs_all w a t = Ok ss /\ index_by_uid ss' [] = Ok ds /\ index_by_uid (dvals ds) [] = Ok ds /\ nlist ss (dvals ds) /\ nlist (dvals ds) ss /\ sound plainT ss /\ sound plainT (dvals ds) /\ length (dvals ds) <= length ss'.
  Proof.
    intros H K P Pt R. destruct (all_once a ad l t H K P Pt) as (ss & us & E & U & N & SO). rewrite E in R. cbn in R.
    destruct (relist_near ss us ss' U N R) as (ds & A & B & C & LE). exists ss, ds. do 3 (split; [assumption|]).
    assert (N1 : nlist ss (dvals ds)) by (exists (dvals ds); split; [exact C|apply PureDiffer.Forall2_refl, near_refl]).
    split; [exact N1|]. split; [exists ss; split; [now symmetry|apply PureDiffer.Forall2_refl, near_refl]|]. split; [exact SO|]. split; [|exact LE]. destruct SO as [D T]. split; [now apply (nlist_distinct ss)|].
    eapply Permutation_Forall; eauto.
  Qed.

  Fixpoint ltypes (types : list string) (gs : dict (dict elem)) (c : nat) (r : result (dict (dict elem))) : Prop :=
    match types with
    | [] => r = Ok gs
    | t :: types' => exists ss dd, relisted (objs_all w src t) (Ok ss) /\ relisted (objs_all w dst t) (Ok dd) /\
        match snd (comp ss dd) with
        | Err e => r = Err e
        | Ok es => match add_elems gs es with
                   | Err e => r = Err e
                   | Ok gs' => exists c', c = list_sum (fst (comp ss dd)) + c' /\ ltypes types' gs' c' r
                   end
        end
    end.
  Lemma loosely_types (total : nat) cb types : (forall t, In t types -> plain t = true) -> forall gs,
    loosely w (c_diff_types n (mkEnv src dst flags total cb (ad_name sa) (ad_name da)) types gs) (ltypes types gs).
  Proof.
    set (env := mkEnv src dst flags total cb (ad_name sa) (ad_name da)).
    induction types as [|t types IH]; intros PL gs; cbn [c_diff_types ltypes].
    - apply (loosely_weaken _ _ _ _ (loosely_here env w (ret gs) (wret gs) (gblind_ret _ _ _) (PureDiffer.sim_ret env w gs))). now intros c r [_ ->].
    - assert (Pt : plain t = true) by (apply PL; now left).
      apply (loosely_bind w _ _ (fun c r => c = 0 /\ relisted (objs_all w src t) r)); [now apply (loosely_fetch_all env)| |].
      2:{ intros c e [_ R]. destruct (all_once src sa ls t HS KS PS Pt) as (os & us & E & _). rewrite E in R. destruct R. }
      intros c ss [-> R1]. apply (loosely_bind w _ _ (fun c r => c = 0 /\ relisted (objs_all w dst t) r)); [now apply (loosely_fetch_all env)| |].
      2:{ intros c e [_ R]. destruct (all_once dst da ld t HD KD PDD Pt) as (os & us & E & _). rewrite E in R. destruct R. }
      intros c dd [-> R2]. cbn [Nat.add]. apply (loosely_bind w _ _ (fun c r => c = list_sum (fst (comp ss dd)) /\ r = snd (comp ss dd))).
      { exact (loosely_even env w _ _ _ (ConcSync.sim_list n env ss dd) (PureDiffer.sim_list env w n OK ss dd) (ceven_list n env ss dd)). }
      2:{ intros c e [_ E]. exists ss, dd. do 2 (split; [assumption|]). now rewrite <- E. }
      intros c es [-> E]. apply (loosely_bind w _ _ (fun c r => c = 0 /\ r = add_elems gs es)).
      { exact (loosely_here env w _ _ (gblind_lift _ _ _) (PureDiffer.sim_lift env w (add_elems gs es))). }
      2:{ intros c e [_ E']. exists ss, dd. do 2 (split; [assumption|]). now rewrite <- E, <- E'. }
      intros c gs' [-> E']. eapply loosely_weaken; [apply IH; intros t' I; apply PL; now right|]. intros c r L. exists ss, dd. do 2 (split; [assumption|]). rewrite <- E, <- E'. exists c. split; [reflexivity|exact L].
  Qed.

  (** the lists read any way, and once *)
  Lemma relisted_faithful t ss' dd' : plain t = true -> relisted (objs_all w src t) (Ok ss') -> relisted (objs_all w dst t) (Ok dd') ->
    exists ss dd, objs_all w src t = Ok ss /\ objs_all w dst t = Ok dd /\
      (forall es k, faith ss dd es k -> exists es', snd (comp ss' dd') = Ok es' /\ resorted_list es es' /\ Permutation (ekern es) (ekern es') /\ k + esides es' <= list_sum (fst (comp ss' dd'))) /\
      (forall es', snd (comp ss' dd') = Ok es' -> exists es k, faith ss dd es k).
  Proof.
    intros Pt R1 R2. destruct (relist src sa ls t ss' HS KS PS Pt R1) as (ss & ds & E1 & A1 & B1 & N1 & M1 & S1 & T1 & L1).
    destruct (relist dst da ld t dd' HD KD PDD Pt R2) as (dd & de & E2 & A2 & B2 & N2 & M2 & S2 & T2 & L2). exists ss, dd. do 2 (split; [assumption|]).
    destruct (plist_index flags (ad_name sa) (ad_name da) (objs_by w src) (objs_by w dst) n (dvals ds) ss' (dvals de) dd') as [X LE]; try congruence; try assumption. rewrite X.
    pose proof (reads_same src sa ls HS KS PS) as RS. pose proof (reads_same dst da ld HD KD PDD) as RD. split.
    - intros es k F. destruct (near_faithful plainT flags _ _ _ _ _ _ RS RD n ss (dvals ds) dd (dvals de) es k N1 N2 S1 S2 F) as (es' & F' & R & EK).
      exists es'. destruct (faithful_plist _ _ _ _ _ _ _ _ _ _ F') as (ks & Q & SU). rewrite Q in *. cbn [fst snd] in *. rewrite SU in LE. do 3 (split; [auto|]). exact LE.
    - intros es' E. destruct (comp (dvals ds) (dvals de)) as [ks r] eqn:C. cbn [snd] in E. subst r. destruct (plist_faithful _ _ _ _ _ _ _ _ _ _ C) as (k & F & _).
      destruct (near_faithful plainT flags _ _ _ _ _ _ RS RD n (dvals ds) ss (dvals de) dd es' k M1 M2 T1 T2 F) as (es & F' & _). now exists es, k.
  Qed.
  Notation each := (fun t (k : list elem * nat) => exists ss dd, objs_all w src t = Ok ss /\ objs_all w dst t = Ok dd /\ faith ss dd (fst k) (snd k)).
  Lemma ltypes_forth types per : Forall2 each types per -> (forall t, In t types -> plain t = true) -> forall es0 es1 gs c r,
    resorted_list es0 es1 -> grouped gs es1 -> NoDup (map tagged (es0 ++ flat_map fst per)) -> ltypes types gs c r ->
    exists gs' es', r = Ok gs' /\ grouped gs' (es1 ++ es') /\ resorted_list (flat_map fst per) es' /\ Permutation (ekern (flat_map fst per)) (ekern es') /\
      list_sum (map snd per) + esides es' <= c.
  Proof.
    induction 1 as [|t [es k] types per (ss & dd & B1 & B2 & R) F IH]; intros PL es0 es1 gs c r RL G ND L; cbn [ltypes flat_map map fst snd] in *.
    - exists gs, []. rewrite app_nil_r. split; [exact L|]. split; [exact G|]. split; [exists []; split; constructor|]. split; [constructor|cbn; lia].
    - destruct L as (ss' & dd' & R1 & R2 & L). destruct (relisted_faithful t ss' dd' (PL t (or_introl eq_refl)) R1 R2) as (ss1 & dd1 & C1 & C2 & X & _).
      rewrite B1 in C1. rewrite B2 in C2. injection C1 as <-. injection C2 as <-. destruct (X es k R) as (es' & E & RS & EK & LE). rewrite E in L.
      rewrite app_assoc in ND. pose proof (resorted_app _ _ _ _ RL RS) as RA.
      assert (ND1 : NoDup (map tagged (es1 ++ es'))) by (eapply resorted_NoDup; [exact RA|]; rewrite map_app in ND; now apply NoDup_app_l in ND).
      destruct (grouped_exists _ ND1) as (gs1 & G1). rewrite (add_elems_complete es' gs es1 gs1 G G1) in L. destruct L as (c' & -> & L).
      destruct (IH (fun t' I => PL t' (or_intror I)) _ _ _ _ _ RA G1 ND L) as (gs' & es'' & -> & G' & RS' & EK' & LE'). exists gs', (es' ++ es''). split; [reflexivity|].
      split; [now rewrite app_assoc|]. split; [now apply resorted_app|]. rewrite !ekern_app, esides_app, list_sum_cons. split; [now apply Permutation_app|lia].
  Qed.
  Lemma ltypes_back types : (forall t, In t types -> plain t = true) -> forall es1 gs c gs', grouped gs es1 -> ltypes types gs c (Ok gs') ->
    exists per es', Forall2 each types per /\ grouped gs' (es1 ++ es') /\ resorted_list (flat_map fst per) es'.
  Proof.
    induction types as [|t types IH]; intros PL es1 gs c gs' G L; cbn [ltypes] in L.
    - injection L as <-. exists [], []. rewrite app_nil_r. split; [constructor|]. split; [exact G|]. exists []. split; constructor.
    - destruct L as (ss' & dd' & R1 & R2 & L). destruct (relisted_faithful t ss' dd' (PL t (or_introl eq_refl)) R1 R2) as (ss & dd & C1 & C2 & X & Y).
      destruct (snd (comp ss' dd')) as [es'|e] eqn:E; [|discriminate]. destruct (Y es' eq_refl) as (es & k & F). destruct (X es k F) as (es2 & Q & RS & _). injection Q as <-.
      destruct (add_elems gs es') as [gs1|] eqn:A; [|discriminate]. destruct L as (c' & _ & L). destruct (IH (fun t' I => PL t' (or_intror I)) _ _ _ _ (grouped_adds _ _ _ _ G A) L) as (per & es'' & FP & G' & RS').
      exists ((es, k) :: per), (es' ++ es''). split; [constructor; [exists ss, dd; auto|exact FP]|]. cbn [flat_map fst]. rewrite app_assoc. split; [exact G'|now apply resorted_app].
  Qed.

  (** *** the types at the top of only one side *)
  Fixpoint lskip (types : list string) (c : nat) : Prop :=
    match types with
    | [] => c = 0
    | t :: types' => exists l c', relisted (objs_all w (if smem t (ad_top da) then dst else src) t) (Ok l) /\ c = length l + c' /\ lskip types' c'
    end.
  Lemma loosely_skip (total : nat) cb types : (forall t, In t types -> plain t = true /\ (In t (ad_top da) \/ In t (ad_top sa))) ->
    let env := mkEnv src dst flags total cb (ad_name sa) (ad_name da) in
    loosely w (cforM types (fun t =>
      if smem t (ad_top da) then cbind (c_fetch_all dst t) (fun l => here (incr_models_processed env (length l)))
      else if smem t (ad_top sa) then cbind (c_fetch_all src t) (fun l => here (incr_models_processed env (length l)))
      else here (ret tt))) (fun c r => r = Ok tt /\ lskip types c).
  Proof.
    intros PL env. induction types as [|t types IH]; cbn [cforM lskip].
    - apply (loosely_weaken _ _ _ _ (loosely_here env w (ret tt) (wret tt) (gblind_ret _ _ _) (PureDiffer.sim_ret env w tt))). now intros c r [-> ->].
    - destruct (PL t (or_introl eq_refl)) as [Pt Q].
      set (a := if smem t (ad_top da) then dst else src).
      assert (B : loosely w (cbind (c_fetch_all a t) (fun l => here (incr_models_processed env (length l)))) (fun c r => r = Ok tt /\ exists l, relisted (objs_all w a t) (Ok l) /\ c = length l)).
      { apply (loosely_bind w _ _ (fun c r => c = 0 /\ relisted (objs_all w a t) r)); [now apply (loosely_fetch_all env)| |].
        - intros c l [-> R]. eapply loosely_weaken; [apply (loosely_here env w _ _ (blind_incr env (length l)) (PureDiffer.sim_tick env w (length l)))|].
          intros c r [-> ->]. split; [reflexivity|]. exists l. split; [exact R|]. cbn. lia.
        - intros c e [_ R]. unfold a in R. destruct (smem t (ad_top da)); [destruct (all_once dst da ld t HD KD PDD Pt) as (os & us & E & _)|destruct (all_once src sa ls t HS KS PS Pt) as (os & us & E & _)]; rewrite E in R; destruct R. }
      apply (loosely_bind w _ _ (fun c r => r = Ok tt /\ exists l, relisted (objs_all w a t) (Ok l) /\ c = length l)).
      + unfold a in *. destruct (smem t (ad_top da)) eqn:M; [exact B|]. destruct (smem t (ad_top sa)) eqn:M'; [exact B|]. exfalso. destruct Q as [Q|Q]; apply smem_In in Q; congruence.
      + intros c [] [_ (l & R & ->)]. eapply loosely_weaken; [apply IH; intros t' I; apply PL; now right|]. intros c r [-> L]. split; [reflexivity|]. exists l, c. auto.
      + intros c e [Q' _]. discriminate.
  Qed.
  Lemma lskip_least types c : (forall t, In t types -> plain t = true) -> lskip types c ->
    exists others, Forall2 (fun t m => exists l, m = length l /\ objs_all w (if smem t (ad_top da) then dst else src) t = Ok l) types others /\ list_sum others <= c.
  Proof.
    revert c. induction types as [|t types IH]; intros c PL L; cbn [lskip] in L; [exists []; split; [constructor|cbn; lia]|]. destruct L as (l & c' & R & -> & L).
    destruct (IH c' (fun t' I => PL t' (or_intror I)) L) as (others & F & LE). assert (Pt : plain t = true) by (apply PL; now left).
    assert (X : exists os us, objs_all w (if smem t (ad_top da) then dst else src) t = Ok os /\ map get_unique_id os = map Ok us /\ NoDup us).
    { destruct (smem t (ad_top da)); [destruct (all_once dst da ld t HD KD PDD Pt) as (os & us & A & B & C & _)|destruct (all_once src sa ls t HS KS PS Pt) as (os & us & A & B & C & _)]; now exists os, us. }
    destruct X as (os & us & E & U & N). rewrite E in R. cbn in R. exists (length os :: others). split; [constructor; [now exists os|exact F]|].
    rewrite list_sum_cons. enough (length os <= length l) by lia. apply NoDup_incl_length; [|intros o I; now apply R].
    apply (NoDup_map_inv get_unique_id). rewrite U. apply FinFun.Injective_map_NoDup; [intros x y Z; now injection Z|exact N].
  Qed.

  (** *** the whole diff *)
  Lemma louts_calculate (total : nat) cb dc s d' s' r : w_redis (ds_w s) = [] -> read_only w (set_redis (ds_w s) (w_redis w)) -> ds_n s = 0 ->
    louts (c_calculate_diffs n (mkEnv src dst flags total cb (ad_name sa) (ad_name da)) dc (ad_top da) (ad_top sa) s) (w_redis w) d' (s', r) ->
    d' = w_redis w /\ w_redis (ds_w s') = [] /\ read_only w (set_redis (ds_w s') (w_redis w)) /\
    exists cs c rg, lskip (symmetric_difference (ad_top da) (ad_top sa)) cs /\ ltypes (intersection (ad_top da) (ad_top sa)) [] c rg /\
      r = match rg with Ok gs => Ok (mkDiff dc gs (cs + c)) | Err e => Err e end.
  Proof.
    assert (PL : forall t, In t (symmetric_difference (ad_top da) (ad_top sa)) -> plain t = true /\ (In t (ad_top da) \/ In t (ad_top sa))).
    { intros t I. apply In_symdiff in I as [[I _]|[I _]]; (split; [|auto]); [now apply PS|now apply PDD]. }
    assert (PI : forall t, In t (intersection (ad_top da) (ad_top sa)) -> plain t = true) by (intros t I; apply filter_In in I; now apply PDD).
    intros S R Z H. apply louts_bind in H as (d1 & s1 & r1 & H1 & H2). destruct (loosely_skip total cb _ PL s S R _ _ _ H1) as (-> & S1 & R1 & cs & N1 & -> & LS).
    apply louts_bind in H2 as (d2 & s2 & r2 & H2 & H3). destruct (loosely_types total cb _ PI [] s1 S1 R1 _ _ _ H2) as (-> & S2 & R2 & c & N2 & LT). destruct r2 as [gs|e].
    - cbn in H3. destruct H3 as [-> H3]. injection H3 as -> ->. do 3 (split; [auto|]). exists cs, c, (Ok gs). do 2 (split; [assumption|]). do 2 f_equal. lia.
    - destruct H3 as (-> & -> & ->). do 3 (split; [auto|]). exists cs, c, (Err e). auto.
  Qed.
End Diff.
Lemma louts_count_all a w d d' w' r : louts (c_count_all a w) d d' (w', r) -> d' = d /\ w' = w /\ exists n, r = Ok n.
Proof.
  unfold c_count_all. destruct (nth_error (w_ads w) a) as [ad|]; [destruct (ad_store ad)|]; cbn [louts].
  - intros [-> H]. injection H as -> ->. eauto.
  - intros (l & _ & -> & H). injection H as -> ->. eauto.
  - intros [-> H]. injection H as -> ->. eauto.
Qed.
Lemma loose_diff n dst src dc flags cb w d d' w' r sa da ls ld : w_redis w = [] -> w_ok (set_redis w d) ->
  has_entries (set_redis w d) src sa ls -> has_entries (set_redis w d) dst da ld -> own_keys ls -> own_keys ld -> plain_types sa ls -> plain_types da ld ->
  louts (c_diff_from n dst src dc flags cb w) d d' (w', r) ->
  d' = d /\ w_redis w' = [] /\ read_only (set_redis w d) (set_redis w' d) /\
  match snd (diff_from n dst src dc flags cb (set_redis w d)) with
  | Ok D => exists D', r = Ok D' /\ resorted_tree (d_groups D) (d_groups D') /\ d_class D' = d_class D /\ d_processed D <= d_processed D' /\
              Permutation (map own (tree_all (d_groups D))) (map own (tree_all (d_groups D')))
  | Err _ => exists e, r = Err e
  end.
Proof.
  intros Z OK HS HD KS KD PS PD L. set (W := set_redis w d) in *.
  apply louts_bind in L as (d1 & w1 & r1 & L1 & L). cbn in L1. destruct L1 as [-> L1]. pose proof (proj1 HS) as HS1. pose proof (proj1 HD) as HD1.
  unfold W in HS1, HD1. cbn [w_ads set_redis] in HS1, HD1. unfold get_adapter in L1. rewrite HS1 in L1. injection L1 as -> ->.
  apply louts_bind in L as (d1 & w1 & r1 & L1 & L). cbn in L1. destruct L1 as [-> L1]. unfold get_adapter in L1. rewrite HD1 in L1. injection L1 as -> ->.
  apply louts_bind in L as (d1 & w1 & r1 & L1 & L). apply louts_count_all in L1 as (-> & -> & c1 & ->).
  apply louts_bind in L as (d1 & w1 & r1 & L1 & L). apply louts_count_all in L1 as (-> & -> & c2 & ->). cbv zeta in L.
  apply louts_then in L as (d1 & [s1 r1] & L & L2). cbn in L2. destruct L2 as [-> L2]. injection L2 as -> ->.
  destruct (louts_calculate W src dst sa da ls ld OK HS HD KS KD PS PD flags n (c1 + c2) cb dc (mkDS w 0) d1 s1 r1 Z (read_only_refl W) eq_refl L) as (-> & S1 & R1 & cs & c & rg & LS & LT & ->).
  split; [reflexivity|]. split; [exact S1|]. split; [exact R1|].
  assert (PI : forall t, In t (intersection (ad_top da) (ad_top sa)) -> plain t = true) by (intros t I; apply filter_In in I; now apply PD).
  assert (PL : forall t, In t (symmetric_difference (ad_top da) (ad_top sa)) -> plain t = true).
  { intros t I. apply In_symdiff in I as [[I _]|[I _]]; [now apply PS|now apply PD]. }
  destruct (lskip_least W src dst sa da ls ld HS HD KS KD PS PD _ _ PL LS) as (others & FO & LO).
  destruct (snd (diff_from n dst src dc flags cb W)) as [D|e] eqn:E.
  - apply (diff_from_iff _ _ _ _ _ _ _ _ _ OK (proj1 HS) (proj1 HD)) in E as (k & F & C & PR). destruct F as (lone & others' & per & ND & LN & O & FP & G & ->).
    destruct (ltypes_forth W src dst sa da ls ld HS HD KS KD PS PD flags n _ per FP PI [] [] [] c rg) as (gs' & es' & -> & G' & RS & EK & LE).
    { exists []. split; constructor. } { apply grouped_nil. } { now apply grouped_NoDup in G. } { exact LT. }
    cbn [app] in G'. exists (mkDiff dc gs' (cs + c)). split; [reflexivity|]. split; [exact (resorted_groups _ _ _ _ RS G G')|]. split; [now rewrite C|].
    assert (PO : Permutation (map own (tree_all (d_groups D))) (map own (tree_all gs'))).
    { rewrite (ekern_tree _ _ G), (ekern_tree _ _ G'). exact EK. }
    split; [|exact PO]. cbn [d_processed]. rewrite PR.
    assert (SI : tree_sides (d_groups D) = tree_sides gs').
    { unfold tree_sides. apply list_sum_perm, (perm_own _ _ sides (fun x => (match fst x with Some _ => 1 | None => 0 end) + (match snd x with Some _ => 1 | None => 0 end))); [reflexivity|exact PO]. }
    assert (PE : Permutation lone (symmetric_difference (ad_top da) (ad_top sa))).
    { apply NoDup_Permutation; [exact ND|apply NoDup_symdiff|]. intros t. rewrite LN. symmetry. apply In_symdiff. }
    destruct (Forall2_perm _ _ _ _ O PE) as (o1 & O1 & P1).
    assert (o1 = others) as ->.
    { clear - O1 FO. revert others FO. induction O1 as [|t m types o1 (l & -> & E) F IH]; intros others FO; inversion FO as [|? m' ? others' (l' & -> & E') F']; subst; [reflexivity|].
      rewrite E in E'. injection E' as <-. f_equal. now apply IH. }
    rewrite (list_sum_perm _ _ P1), SI, (tree_sides_grouped _ _ G'). lia.
  - destruct rg as [gs'|e']; [|eauto]. exfalso.
    destruct (ltypes_back W src dst sa da ls ld HS HD KS KD PS PD flags n _ PI [] [] c gs' grouped_nil LT) as (per & es' & FP & G' & RS). cbn [app] in G'.
    assert (NE : NoDup (map tagged (flat_map fst per))).
    { apply grouped_NoDup in G'. destruct RS as (m & P & FM). assert (Q : map tagged es' = map tagged m) by (clear - FM; induction FM as [|x y m es' M FM IH]; cbn; [reflexivity|]; rewrite (resorted_tag _ _ M); congruence).
      rewrite Q in G'. eapply Permutation_NoDup; [apply Permutation_map; symmetry; exact P|exact G']. }
    destruct (grouped_exists _ NE) as (gs & G).
    assert (X : snd (diff_from n dst src dc flags cb W) = Ok (mkDiff dc gs (tree_sides gs + (list_sum others + list_sum (map snd per))))).
    { apply (diff_from_iff _ _ _ _ _ _ _ _ _ OK (proj1 HS) (proj1 HD)). eexists. split; [|split; reflexivity]. exists (symmetric_difference (ad_top da) (ad_top sa)), others, per.
      split; [apply NoDup_symdiff|]. split; [intros t; apply In_symdiff|]. split; [exact FO|]. split; [exact FP|]. split; [exact G|reflexivity]. }
    congruence.
Qed.

(** ** The calls *)
Lemma louts_adapter {A} a ad w d d' x (k : adapter -> CM A) : nth_error (w_ads w) a = Some ad -> louts (cbind (here (get_adapter a)) k w) d d' x -> louts (k ad w) d d' x.
Proof. intros E H. unfold cbind, here, get_adapter in H. rewrite E in H. exact H. Qed.
Lemma loose_names a ad i w d d' w' r : w_redis w = [] -> nth_error (w_ads w) a = Some ad -> ad_store ad = SRedis i ->
  many rstep (d, issued a KNames w) (d', Done (w', r)) ->
  d' = d /\ w' = w /\ exists ns ns', snd (ConcSpec.made a KNames (set_redis w d)) = Ok (RNames ns) /\ r = Ok (RNames ns') /\
    NoDup ns' /\ forall n, In n ns' <-> In n ns.
Proof.
  intros Z E ES H. apply louts_iff in H. cbn [issued] in H. apply louts_fmap in H as (r1 & H & ->). unfold c_get_all_model_names in H. apply (louts_adapter a ad) in H; [|exact E].
  rewrite ES in H. destruct H as (l & L & -> & H). injection H as -> ->. split; [reflexivity|]. split; [reflexivity|].
  exists (sdedup (map model_name_of_key (filter (glob (store_label i ++ ":*")%string) (dkeys d)))), (sdedup (map model_name_of_key l)). split.
  - cbn [ConcSpec.made]. unfold mfmap, st_get_all_model_names, bind, get_adapter. cbn [w_ads set_redis]. rewrite E, ES. reflexivity.
  - split; [reflexivity|]. split; [apply NoDup_sdedup'|]. intros n. rewrite !In_sdedup', !in_map_iff. split; intros (k & <- & I); exists k; (split; [reflexivity|now apply L]).
Qed.
Lemma seq_points h (os : list obj) o : In (Some o) (map (nth_error (h ++ os)) (seq (length h) (length os))) <-> In o os.
Proof.
  rewrite in_map_iff. split.
  - intros (r & G & I). apply in_seq in I. rewrite nth_error_app2 in G by lia. now apply nth_error_In in G.
  - intros I. apply In_nth_error in I as (k & K). exists (length h + k). rewrite nth_error_app2 by lia. replace (length h + k - length h) with k by lia. split; [exact K|].
    apply in_seq. assert (k < length os) by (apply nth_error_Some; congruence). lia.
Qed.
Lemma loose_all a ad i m w d d' w' r : w_redis w = [] -> nth_error (w_ads w) a = Some ad -> ad_store ad = SRedis i ->
  many rstep (d, issued a (KGetAll m) w) (d', Done (w', r)) ->
  d' = d /\ exists W rs rs', ConcSpec.made a (KGetAll m) (set_redis w d) = (W, Ok (RRefs rs)) /\ r = Ok (RRefs rs') /\
    forall o, In (Some o) (map (nth_error (w_heap w')) rs') <-> In (Some o) (map (nth_error (w_heap W)) rs).
Proof.
  intros Z E ES H. apply louts_iff in H. cbn [issued] in H. apply louts_fmap in H as (r1 & H & ->). unfold c_get_all in H. apply (louts_adapter a ad) in H; [|exact E].
  rewrite ES in H. apply louts_bind in H as (d1 & w1 & r2 & H1 & H). destruct H1 as (l & L & -> & H1). injection H1 as -> ->.
  apply (even_louts _ (ceven_map (c_load a) l (fun k => ceven_load a k) w)) in H.
  rewrite (ConcFacts.sim_map (redis_load a) (c_load a) l (fun k => ConcFacts.sim_load a k) w d Z) in H.
  set (ks := filter (glob (store_label i ++ ":" ++ spec_name m ++ ":*")%string) (dkeys d)) in *.
  destruct (loads_ok d a l (fun k I => listed_keys l _ d L k I)) as (os & X & F). destruct (loads_ok d a ks) as (os0 & X0 & F0); [intros k I; apply filter_In in I; apply I|].
  destruct (redis_loads a l (set_redis w d)) as (news & rs & r & Q & Y). cbn [w_redis set_redis] in Y. rewrite X in Y. destruct Y as (-> & -> & ->).
  destruct (redis_loads a ks (set_redis w d)) as (news0 & rs0 & r0 & Q0 & Y0). cbn [w_redis set_redis] in Y0. rewrite X0 in Y0. destruct Y0 as (-> & -> & ->).
  rewrite Q in H. cbn [fst snd] in H. injection H as <- <- <-. split; [reflexivity|]. do 3 eexists. split; [|split; [reflexivity|]].
  - cbn [ConcSpec.made]. unfold mfmap, st_get_all, bind, get_adapter. cbn [w_ads set_redis]. rewrite E, ES. cbn [get_state]. unfold scan. cbn [w_redis set_redis]. fold ks. rewrite Q0. reflexivity.
  - intros o. cbn [w_heap set_redis set_heap]. rewrite !seq_points. exact (loads_same _ _ _ _ _ _ L F F0 o).
Qed.
Lemma listing_length l ks : listing l ks -> NoDup ks -> length ks <= length l /\ (length l = 0 <-> length ks = 0).
Proof.
  intros L N. split; [apply NoDup_incl_length; [exact N|intros k I; now apply L]|]. pose proof (listing_empty _ _ L) as X. destruct (Nat.eqb_spec (length l) 0), (Nat.eqb_spec (length ks) 0); try discriminate; tauto.
Qed.
Lemma loose_count a ad i m w d d' w' r : w_redis w = [] -> nth_error (w_ads w) a = Some ad -> ad_store ad = SRedis i -> NoDup (dkeys d) ->
  many rstep (d, issued a (KCount m) w) (d', Done (w', r)) ->
  d' = d /\ w' = w /\ exists n n', snd (ConcSpec.made a (KCount m) (set_redis w d)) = Ok (RNat n) /\ r = Ok (RNat n') /\ n <= n' /\ (n' = 0 <-> n = 0).
Proof.
  intros Z E ES N H. apply louts_iff in H. cbn [issued] in H. apply louts_fmap in H as (r1 & H & ->). unfold c_count in H. apply (louts_adapter a ad) in H; [|exact E]. rewrite ES in H.
  assert (X : exists pat l, listing l (filter (glob pat) (dkeys d)) /\ d' = d /\ w' = w /\ r1 = Ok (length l) /\ snd (ConcSpec.made a (KCount m) (set_redis w d)) = Ok (RNat (length (filter (glob pat) (dkeys d))))).
  { destruct m as [m|].
    - destruct H as (l & L & -> & H). injection H as -> ->. eexists _, l. do 4 (split; [eauto|]). cbn [ConcSpec.made]. unfold mfmap, st_count, bind, get_adapter. cbn [w_ads set_redis]. rewrite E, ES. reflexivity.
    - unfold c_count_all in H. rewrite E, ES in H. destruct H as (l & L & -> & H). injection H as -> ->. eexists _, l. do 4 (split; [eauto|]).
      cbn [ConcSpec.made]. unfold mfmap, st_count, bind, get_adapter. cbn [w_ads set_redis]. rewrite E, ES. cbn [get_state fst snd ret]. unfold count_all. cbn [w_ads set_redis]. rewrite E, ES. reflexivity. }
  destruct X as (pat & l & L & -> & -> & -> & ->). do 2 (split; [reflexivity|]). do 2 eexists. split; [reflexivity|]. split; [reflexivity|]. apply listing_length; [exact L|now apply NoDup_filter].
Qed.
Lemma loose_diff_call n dst src dc flags cb w d d' w' r sa da ls ld : w_redis w = [] -> w_ok (set_redis w d) ->
  has_entries (set_redis w d) src sa ls -> has_entries (set_redis w d) dst da ld ->
  own_keys ls -> own_keys ld -> plain_types sa ls -> plain_types da ld ->
  many rstep (d, issued dst (KDiff n src dc flags cb) w) (d', Done (w', r)) ->
  d' = d /\
  match snd (diff_from n dst src dc flags cb (set_redis w d)) with
  | Ok D => exists D', r = Ok (RDiff D') /\ resorted_tree (d_groups D) (d_groups D') /\ d_class D' = d_class D /\ d_processed D <= d_processed D' /\
              (yields_once (dc_order dc) -> diff_counts D' = diff_counts D /\ diff_has_diffs D' = diff_has_diffs D)
  | Err _ => exists e, r = Err e
  end.
Proof.
  intros Z OK HS HD KS KD PS PD H. apply louts_iff in H. cbn [issued] in H. apply louts_fmap in H as (r1 & H & ->).
  destruct (loose_diff n dst src dc flags cb w d d' w' r1 sa da ls ld Z OK HS HD KS KD PS PD H) as (-> & _ & _ & X). split; [reflexivity|].
  destruct (snd (diff_from n dst src dc flags cb (set_redis w d))) as [D|e] eqn:E; [|destruct X as (e' & ->); eauto].
  destruct X as (D' & -> & R & C & LE & P). exists D'. do 4 (split; [auto|]). intros Y.
  apply (diff_from_iff _ _ _ _ _ _ _ _ _ OK (proj1 HS) (proj1 HD)) in E as (k & _ & CD & _). rewrite <- CD in Y.
  destruct (same_counts D (mkDiff (d_class D') (d_groups D') (d_processed D)) Y C eq_refl P) as (A & _ & B). split; [exact A|exact B].
Qed.
(** the memory of the process has no server of its own *)
Definition unserved {A} (c : SM dstate A) : Prop := forall s d d' s' r, w_redis (ds_w s) = [] -> louts (c s) d d' (s', r) -> w_redis (ds_w s') = [].
Lemma unserved_at {A} (m : M dstate A) c s d d' s' r : dsim m c -> even (c s) -> w_redis (ds_w s) = [] -> louts (c s) d d' (s', r) -> w_redis (ds_w s') = [].
Proof. intros H EV Z L. apply (even_louts _ EV) in L. rewrite (H s d Z) in L. now injection L as _ <- _. Qed.
Lemma unserved_even {A} (m : M dstate A) c : dsim m c -> ceven c -> unserved c.
Proof. intros H EV s d d' s' r Z L. exact (unserved_at m c s d d' s' r H (EV s) Z L). Qed.
Lemma unserved_here {A} (m : M dstate A) : dblind m -> unserved (here m).
Proof. intros B. apply (unserved_even m); [now apply dhere|apply ceven_here]. Qed.
Lemma unserved_bind {A B} (m : SM dstate A) (k : A -> SM dstate B) : unserved m -> (forall x, unserved (k x)) -> unserved (cbind m k).
Proof.
  intros H K s d d' s' r Z L. apply louts_bind in L as (d1 & s1 & r1 & L1 & L2). apply (H _ _ _ _ _ Z) in L1. destruct r1 as [x|e]; [exact (K x _ _ _ _ _ L1 L2)|]. destruct L2 as (_ & -> & _). exact L1.
Qed.
Lemma unserved_fetch a t : unserved (c_fetch_all a t).
Proof.
  intros s d d' s' r Z L. destruct (nth_error (w_ads (ds_w s)) a) as [ad|] eqn:E.
  2:{ assert (EV : even (c_fetch_all a t s)) by (unfold c_fetch_all, cbind, cdlift, c_get_all, here, get_adapter, cbind; cbn [cthen fst snd]; rewrite E; cbn [cthen fst snd]; constructor).
      exact (unserved_at _ _ _ _ _ _ _ (ConcSync.sim_fetch_all a t) EV Z L). }
  destruct (ad_store ad) as [dl|sid] eqn:ES.
  - assert (EV : even (c_fetch_all a t s)).
    { unfold c_fetch_all. apply even_then; [|intros [s1 [x|e]]; constructor]. apply even_then; [|intros x; constructor].
      unfold c_get_all, cbind at 1, here at 1, get_adapter. cbn [cthen]. rewrite E. cbn [fst snd]. rewrite ES. constructor. }
    exact (unserved_at _ _ _ _ _ _ _ (ConcSync.sim_fetch_all a t) EV Z L).
  - assert (C : c_fetch_all a t s = CScan (store_label sid ++ ":" ++ t ++ ":*")%string (fun l => c_fetched a l s)).
    { unfold c_fetch_all, c_fetched, c_get_all, cbind at 1, cdlift at 1, cbind at 1, here at 1, get_adapter. cbn [cthen]. rewrite E. cbn [fst snd]. rewrite ES. reflexivity. }
    rewrite C in L. cbn [louts] in L. destruct L as (l & _ & L). exact (unserved_at _ _ _ _ _ _ _ (sim_fetched a l) (even_fetched a l s) Z L).
Qed.
Lemma loose_memory fuel dst src dc flags cb w d d' w' r : w_redis w = [] -> louts (c_diff_from fuel dst src dc flags cb w) d d' (w', r) -> w_redis w' = [].
Proof.
  intros Z L. unfold c_diff_from in L.
  apply louts_bind in L as (d1 & w1 & r1 & L1 & L). cbn in L1. destruct L1 as [-> L1].
  assert (w1 = w) as -> by (unfold get_adapter in L1; destruct (nth_error (w_ads w) src); now injection L1). destruct r1 as [sa|]; [|now destruct L as (_ & -> & _)]. clear L1.
  apply louts_bind in L as (d2 & w1 & r1 & L1 & L). cbn in L1. destruct L1 as [-> L1].
  assert (w1 = w) as -> by (unfold get_adapter in L1; destruct (nth_error (w_ads w) dst); now injection L1). destruct r1 as [da|]; [|now destruct L as (_ & -> & _)]. clear L1.
  apply louts_bind in L as (d3 & w1 & r1 & L1 & L). apply louts_count_all in L1 as (-> & -> & c1 & ->).
  apply louts_bind in L as (d3 & w1 & r1 & L1 & L). apply louts_count_all in L1 as (-> & -> & c2 & ->). cbv zeta in L.
  apply louts_then in L as (d3 & [s1 r1] & L & L2). cbn in L2. destruct L2 as [-> L2]. injection L2 as -> ->.
  revert L. apply (fun H : unserved _ => H (mkDS w 0) d d3 s1 r1 Z). unfold c_calculate_diffs. set (env := mkEnv _ _ _ _ _ _ _). apply unserved_bind; [|intros _].
  - unfold c_count_skipped. match goal with |- unserved (cforM ?ts _) => induction ts as [|t tl IH] end; cbn [cforM]; [apply unserved_here, gblind_ret|]. apply unserved_bind; [|intros _; exact IH].
    destruct (smem t (ad_top da)); [|destruct (smem t (ad_top sa)); [|apply unserved_here, gblind_ret]]; (apply unserved_bind; [apply unserved_fetch|intros l0; apply unserved_here, blind_incr]).
  - apply unserved_bind; [|intros gs; apply unserved_here, gblind_state; [reflexivity|intros s; apply gblind_ret]].
    generalize (@nil (string * dict elem)). match goal with |- context [intersection ?a ?b] => induction (intersection a b) as [|t types IH] end; intros gs; cbn [c_diff_types]; [apply unserved_here, gblind_ret|].
    do 2 (apply unserved_bind; [apply unserved_fetch|intros ?]). apply unserved_bind; [exact (unserved_even _ _ (ConcSync.sim_list _ _ _ _) (ceven_list _ _ _ _))|intros es].
    apply unserved_bind; [apply unserved_here, gblind_lift|intros gs'; apply IH].
Qed.
Lemma loose_sync fuel h dst src dc flags cb given w d d' w' r : w_redis w = [] ->
  match given with Some D => diff_len D = 0 | None => True end ->
  many rstep (d, issued dst (KSync fuel h src dc flags cb given) w) (d', Done (w', r)) ->
  exists w1 r1, many rstep (d, issued dst (KDiff fuel src dc flags cb) w) (d, Done (w1, r1)) /\
    match r1 with
    | Err e => d' = d /\ w' = w1 /\ r = Err e
    | Ok (RDiff D) => mfmap RDiff (run_sync (mkSEnv src dst flags (diff_len D) cb (unseeing h) fuel) D) (set_redis w1 d) = (set_redis w' d', r) /\ w_redis w' = []
    | Ok _ => False
    end.
Proof.
  intros Z G H. apply louts_iff in H. cbn [issued] in H. apply louts_fmap in H as (r0 & H & ->). unfold c_sync_from in H. apply louts_bind in H as (d1 & w1 & r1 & H1 & H).
  assert (X : d1 = d /\ w1 = w /\ r1 = Ok tt /\ forall k, match given with Some d0 => if diff_truthy given then here (ret d0) else c_diff_from fuel dst src dc flags cb | None => c_diff_from fuel dst src dc flags cb end k = c_diff_from fuel dst src dc flags cb k).
  { destruct given as [D|]; [|cbn in H1; destruct H1 as [-> H1]; injection H1 as -> ->; auto]. cbn [diff_truthy] in *. rewrite G in *. cbn in H1. destruct H1 as [-> H1]. injection H1 as -> ->. auto. }
  destruct X as (-> & -> & -> & X). clear H1. apply louts_bind in H as (d1 & w1 & r1 & H1 & H). rewrite X in H1. clear X.
  assert (D1 : d1 = d) by (apply louts_silent in H1; [exact H1|apply cread_diff]). subst d1.
  exists w1, (match r1 with Ok D => Ok (RDiff D) | Err e => Err e end). split.
  - apply louts_iff. cbn [issued]. unfold cfmap. apply louts_then. exists d, (w1, r1). split; [exact H1|]. destruct r1; cbn; auto.
  - destruct r1 as [D|e]; [|destruct H as (-> & -> & ->); auto].
    assert (Z1 : w_redis w1 = []) by exact (loose_memory _ _ _ _ _ _ _ _ _ _ _ Z H1).
    apply (even_louts _ (ceven_run _ D w1)) in H. rewrite (sim_run (mkSEnv src dst flags (diff_len D) cb (unseeing h) fuel) (unseeing_blind h) D w1 d Z1) in H.
    unfold mfmap, bind. destruct (run_sync _ D (set_redis w1 d)) as [W r2]. cbn [fst snd] in *. injection H as <- <- <-. rewrite redis_twice, redis_eta. split; [|reflexivity]. now destruct r2.
Qed.
