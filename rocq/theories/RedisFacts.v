(** * RedisFacts: proofs about RedisStore *)
From Verif Require Export RedisSpec StoreFacts.
From Verif Require Import BaseFacts ModelFacts StoreMore PureDiffer DifferCount.
From Coq Require Import Ascii String List Lia PeanoNat.
Import ListNotations.
Open Scope string_scope.
Open Scope list_scope.

(** ** Keys and patterns *)
Lemma plain_no c s : special c = true -> plain (String c s) = false.
Proof. simpl. now intros ->. Qed.
Lemma app_inj s a b : (s ++ a = s ++ b)%string -> a = b.
Proof. induction s; simpl; [easy|]. intros E. injection E as E. auto. Qed.
Lemma colon_inj s : forall s' a b, plain s = true -> plain s' = true ->
  (s ++ String ":"%char a = s' ++ String ":"%char b)%string -> s = s' /\ a = b.
Proof.
  induction s as [|c s IH]; intros [|c' s'] a b P P' E; simpl in *.
  - injection E as E. now split.
  - injection E as <- E. discriminate.
  - injection E as -> E. discriminate.
  - injection E as <- E. apply andb_prop in P as [_ P]. apply andb_prop in P' as [_ P'].
    destruct (IH _ _ _ P P' E) as [-> ->]. now split.
Qed.
Lemma key_inj i t u i' t' u' : plain i = true -> plain t = true -> plain i' = true -> plain t' = true ->
  redis_key i t u = redis_key i' t' u' -> i = i' /\ t = t' /\ u = u'.
Proof.
  unfold redis_key, store_label. intros P Q P' Q' E. rewrite !append_assoc in E. apply app_inj in E. simpl in E.
  destruct (colon_inj _ _ _ _ P P' E) as [-> E2]. destruct (colon_inj _ _ _ _ Q Q' E2) as [-> ->]. auto.
Qed.

(** patterns made of plain characters and ':' followed by '*' test for a prefix *)
Fixpoint literal (s : string) : bool :=
  match s with EmptyString => true | String c s' => (negb (special c) || Ascii.eqb c ":"%char) && literal s' end.
Fixpoint starts (p s : string) : bool :=
  match p with
  | EmptyString => true
  | String c p' => match s with EmptyString => false | String d s' => Ascii.eqb c d && starts p' s' end
  end.
Lemma literal_app a b : literal (a ++ b) = literal a && literal b.
Proof. induction a; simpl; [reflexivity|]. now rewrite IHa, andb_assoc. Qed.
Lemma plain_literal s : plain s = true -> literal s = true.
Proof. induction s as [|c s IH]; simpl; [easy|]. intros P. apply andb_prop in P as [-> P]. now rewrite IH. Qed.
Lemma glob_cons c p s : glob (String c p) s =
  if Ascii.eqb c "*"%char then (fix star (s : string) : bool := glob p s || match s with EmptyString => false | String _ s' => star s' end) s
  else if Ascii.eqb c "?"%char then match s with EmptyString => false | String _ s' => glob p s' end
  else if Ascii.eqb c "["%char then
    match s with
    | EmptyString => false
    | String d s' => match p with
                     | String n p' => if Ascii.eqb n "^"%char then glob_at (Some (true, false, d)) p' s' else glob_at (Some (false, false, d)) p s'
                     | EmptyString => glob_at (Some (false, false, d)) p s'
                     end
    end
  else if Ascii.eqb c "\"%char then
    match p with
    | EmptyString => match s with String d EmptyString => Ascii.eqb d c | _ => false end
    | String c' p' => match s with String d s' => Ascii.eqb c' d && glob p' s' | EmptyString => false end
    end
  else match s with String d s' => Ascii.eqb c d && glob p s' | EmptyString => false end.
Proof. reflexivity. Qed.
Lemma glob_star s : glob "*" s = true.
Proof. induction s as [|c s IH]; [reflexivity|]. simpl in *. exact IH. Qed.
Lemma special_not c x : (negb (special c) || Ascii.eqb c ":"%char) = true -> In x ["*"%char; "?"%char; "["%char; "\"%char] -> Ascii.eqb c x = false.
Proof.
  intros H HI. destruct (Ascii.eqb c x) eqn:E; [|reflexivity]. apply Ascii.eqb_eq in E. subst x. exfalso.
  destruct HI as [<-|[<-|[<-|[<-|[]]]]]; vm_compute in H; discriminate.
Qed.
Lemma glob_prefix p : literal p = true -> forall s, glob (p ++ "*") s = starts p s.
Proof.
  induction p as [|c p IH]; intros L s; [exact (glob_star s)|]. simpl in L. apply andb_prop in L as [L1 L2].
  change (String c p ++ "*")%string with (String c (p ++ "*")). rewrite glob_cons. cbn [starts].
  rewrite (special_not c "*"%char L1), (special_not c "?"%char L1), (special_not c "["%char L1), (special_not c "\"%char L1) by (simpl; auto).
  destruct s as [|d s]; [reflexivity|]. now rewrite IH.
Qed.
Lemma starts_app p a b : starts (p ++ a) (p ++ b) = starts a b.
Proof. induction p; simpl; [reflexivity|]. now rewrite Ascii.eqb_refl, IHp. Qed.
Lemma starts_colon s : forall s' a b, plain s = true -> plain s' = true ->
  starts (s ++ String ":"%char a) (s' ++ String ":"%char b) = String.eqb s s' && starts a b.
Proof.
  induction s as [|c s IH]; intros [|c' s'] a b P P'; simpl in *.
  - reflexivity.
  - destruct c' as [[][][][][][][][]]; try reflexivity; discriminate P'.
  - destruct c as [[][][][][][][][]]; try reflexivity; discriminate P.
  - apply andb_prop in P as [_ P]. apply andb_prop in P' as [_ P'].
    destruct (Ascii.eqb c c'); [|reflexivity]. simpl. now apply IH.
Qed.
Lemma match_store i i' t' u' : plain i = true -> plain i' = true ->
  glob (store_label i ++ ":*") (redis_key i' t' u') = String.eqb i i'.
Proof.
  intros P P'. unfold redis_key, store_label. change ":*" with (":" ++ "*")%string. rewrite <- append_assoc.
  rewrite glob_prefix.
  2:{ rewrite !literal_app, (plain_literal i P). reflexivity. }
  rewrite !append_assoc, starts_app. change (":" ++ "")%string with (String ":"%char "").
  change (":" ++ (t' ++ ":" ++ u'))%string with (String ":"%char (t' ++ ":" ++ u')).
  change ":" with (String ":"%char "") at 1. rewrite starts_colon by easy. now rewrite andb_true_r.
Qed.
Lemma match_type i t i' t' u' : plain i = true -> plain t = true -> plain i' = true -> plain t' = true ->
  glob (store_label i ++ ":" ++ t ++ ":*") (redis_key i' t' u') = String.eqb i i' && String.eqb t t'.
Proof.
  intros P Q P' Q'. unfold redis_key, store_label. change ":*" with (":" ++ "*")%string.
  replace ((("diffsync:" ++ i) ++ ":" ++ t ++ (":" ++ "*")))%string with ((("diffsync:" ++ i) ++ ":" ++ t ++ ":") ++ "*")%string
    by now rewrite !append_assoc.
  rewrite glob_prefix.
  2:{ rewrite !literal_app, (plain_literal i P), (plain_literal t Q). reflexivity. }
  rewrite !append_assoc, starts_app.
  change (":" ++ (t' ++ ":" ++ u'))%string with (String ":"%char (t' ++ ":" ++ u')).
  change (":" ++ (t ++ ":"))%string with (String ":"%char (t ++ ":")). rewrite starts_colon by easy.
  change (":" ++ u')%string with (String ":"%char u').
  change ":" with (String ":"%char "") at 1. rewrite starts_colon by easy. now rewrite andb_true_r.
Qed.
Lemma split_plain s a : plain s = true -> split_colon (s ++ String ":"%char a) = s :: split_colon a.
Proof.
  induction s as [|c s IH]; intros P; [reflexivity|]. simpl in P. apply andb_prop in P as [P1 P2]. simpl.
  destruct (Ascii.eqb c ":"%char) eqn:E.
  - apply Ascii.eqb_eq in E. subst c. discriminate.
  - now rewrite (IH P2).
Qed.
Lemma name_of_key i t u : plain i = true -> plain t = true -> model_name_of_key (redis_key i t u) = t.
Proof.
  intros P Q. unfold model_name_of_key, redis_key, store_label. rewrite !append_assoc.
  change ("diffsync:" ++ i ++ ":" ++ t ++ ":" ++ u)%string with ("diffsync" ++ String ":"%char (i ++ String ":"%char (t ++ String ":"%char u)))%string.
  rewrite (split_plain "diffsync"), (split_plain i), (split_plain t) by easy. reflexivity.
Qed.

(** ** The server as a register *)
Local Arguments redis_key : simpl never.
Local Arguments store_label : simpl never.
Definition ekey (e : rkey * obj) : string := redis_key (fst (fst (fst e))) (snd (fst (fst e))) (snd (fst e)).
Local Arguments ekey : simpl never.
Definition enc (l : rreg) : dict obj := map (fun e : rkey * obj => (ekey e, snd e)) l.
Definition good (l : rreg) : Prop :=
  Forall (fun e : rkey * obj => plain (fst (fst (fst e))) = true /\ plain (snd (fst (fst e))) = true /\
                   get_type (snd e) = snd (fst (fst e))) l.
Lemma good_cons e l : good (e :: l) -> (plain (fst (fst (fst e))) = true /\ plain (snd (fst (fst e))) = true) /\ good l.
Proof. intros G. inversion G; subst. split; [tauto|assumption]. Qed.

Section Server.
  Variables i t u : string.
  Hypothesis Pi : plain i = true.
  Hypothesis Pt : plain t = true.

  Lemma same_key e : plain (fst (fst (fst e))) = true -> plain (snd (fst (fst e))) = true ->
    String.eqb (redis_key i t u) (ekey e) = rkey_eqb i t u e.
  Proof.
    intros P Q. destruct e as [[[i' t'] u'] o]. unfold rkey_eqb, ekey. cbn [fst snd] in *.
    destruct (String.eqb_spec (redis_key i t u) (redis_key i' t' u')) as [E|N].
    - apply key_inj in E; try assumption. destruct E as (-> & -> & ->). now rewrite !String.eqb_refl.
    - destruct (String.eqb_spec i i'); [|reflexivity]. destruct (String.eqb_spec t t'); [|reflexivity].
      destruct (String.eqb_spec u u'); [|reflexivity]. subst. now contradiction N.
  Qed.
  Lemma enc_get l : good l -> dget (enc l) (redis_key i t u) = rfind l i t u.
  Proof.
    unfold rfind. induction l as [|e l IH]; intros G; [reflexivity|]. apply good_cons in G as [[P Q] G]. cbn [enc map dget find].
    rewrite (same_key e P Q). destruct (rkey_eqb i t u e); [reflexivity|now apply IH].
  Qed.
  Lemma rkey_true e : rkey_eqb i t u e = true -> fst e = (i, t, u).
  Proof.
    clear Pi Pt. destruct e as [[[i' t'] u'] o]. unfold rkey_eqb. simpl. intros H. apply andb_prop in H as [H H3]. apply andb_prop in H as [H1 H2].
    apply String.eqb_eq in H1, H2, H3. now subst.
  Qed.
  Lemma rkey_refl o : rkey_eqb i t u (i, t, u, o) = true.
  Proof. unfold rkey_eqb. simpl. now rewrite !String.eqb_refl. Qed.
  Lemma no_other l : ~ In (i, t, u) (map fst l) -> Forall (fun e : rkey * obj => rkey_eqb i t u e = false) l.
  Proof.
    intros N. apply Forall_forall. intros e HI. destruct (rkey_eqb i t u e) eqn:E; [|reflexivity].
    apply rkey_true in E. contradiction N. rewrite <- E. now apply in_map.
  Qed.
  Lemma map_none (l : rreg) o : Forall (fun e : rkey * obj => rkey_eqb i t u e = false) l ->
    map (fun e : rkey * obj => if rkey_eqb i t u e then (i, t, u, o) else e) l = l.
  Proof. induction 1 as [|e l E _ IH]; [reflexivity|]. simpl. now rewrite E, IH. Qed.
  Lemma del_none (l : rreg) : Forall (fun e : rkey * obj => rkey_eqb i t u e = false) l -> rdel l i t u = l.
  Proof. induction 1 as [|e l E _ IH]; [reflexivity|]. unfold rdel in *. simpl. now rewrite E, IH. Qed.
  Lemma enc_set l o : good l -> NoDup (map fst l) -> dset (enc l) (redis_key i t u) o = enc (rput l i t u o).
  Proof.
    unfold rput. induction l as [|e l IH]; intros G N; [reflexivity|]. apply good_cons in G as [[P Q] G].
    inversion N as [|x y N1 N2]; subst x y.
    cbn [enc map dset ddel find filter]. rewrite (same_key e P Q). destruct (rkey_eqb i t u e) eqn:E.
    - pose proof (rkey_true e E) as K. rewrite K in N1. cbn [enc map snd]. f_equal.
      + f_equal. unfold ekey. now rewrite K.
      + unfold enc. now rewrite (map_none l o (no_other l N1)).
    - specialize (IH G N2). fold (enc l). rewrite IH. destruct (find (rkey_eqb i t u) l); reflexivity.
  Qed.
  Lemma enc_del l : good l -> NoDup (map fst l) -> ddel (enc l) (redis_key i t u) = enc (rdel l i t u).
  Proof.
    unfold rdel. induction l as [|e l IH]; intros G N; [reflexivity|]. apply good_cons in G as [[P Q] G].
    inversion N as [|x y N1 N2]; subst x y.
    cbn [enc map dset ddel find filter]. rewrite (same_key e P Q). destruct (rkey_eqb i t u e) eqn:E; simpl.
    - pose proof (rkey_true e E) as K. rewrite K in N1. pose proof (del_none l (no_other l N1)) as D. unfold rdel in D. now rewrite D.
    - fold (enc l). now rewrite (IH G N2).
  Qed.
  Lemma good_put l o : good l -> get_type o = t -> good (rput l i t u o).
  Proof.
    intros G T. unfold rput. destruct (find _ l).
    - apply Forall_forall. intros e HI. apply in_map_iff in HI as (x & <- & HI).
      destruct (rkey_eqb i t u x); [simpl; auto|]. exact (proj1 (Forall_forall _ _) G x HI).
    - apply Forall_app. split; [exact G|]. constructor; [simpl; auto|constructor].
  Qed.
  Lemma good_del l : good l -> good (rdel l i t u).
  Proof. intros G. apply Forall_forall. intros e HI. apply filter_In in HI as [HI _]. exact (proj1 (Forall_forall _ _) G e HI). Qed.
  Lemma nodup_put l o : NoDup (map fst l) -> NoDup (map fst (rput l i t u o)).
  Proof.
    intros N. unfold rput. destruct (find _ l) as [x|] eqn:F.
    - replace (map fst (map _ l)) with (map fst l); [exact N|]. rewrite map_map. apply map_ext.
      intros e. destruct (rkey_eqb i t u e) eqn:E; [|reflexivity]. now apply rkey_true.
    - rewrite map_app. simpl. apply DifferCount.NoDup_app_intro; [exact N|repeat constructor; intros []|].
      intros k HI [<-|[]]. apply in_map_iff in HI as (e & E & HI). pose proof (find_none _ _ F e HI) as X.
      unfold rkey_eqb in X. rewrite E in X. simpl in X. now rewrite !String.eqb_refl in X.
  Qed.
  Lemma nodup_del l : NoDup (map fst l) -> NoDup (map fst (rdel l i t u)).
  Proof.
    unfold rdel. induction l as [|e l IH]; intros N; [exact N|]. inversion N as [|x y N1 N2]; subst x y. simpl.
    destruct (negb (rkey_eqb i t u e)); [|now apply IH]. simpl. constructor; [|now apply IH].
    intros HI. apply in_map_iff in HI as (x & E & HI). apply filter_In in HI as [HI _]. apply N1. rewrite <- E. now apply in_map.
  Qed.
End Server.

Lemma filter_enc (p : string -> bool) (q : rkey * obj -> bool) l :
  (forall e, In e l -> p (ekey e) = q e) -> filter p (dkeys (enc l)) = map ekey (filter q l).
Proof.
  induction l as [|e l IH]; intros H; [reflexivity|].
  change (dkeys (enc (e :: l))) with (ekey e :: dkeys (enc l)). cbn [filter]. rewrite (H e) by (now left).
  rewrite IH by (intros x HI; apply H; now right). now destruct (q e).
Qed.
Lemma good_in l e : good l -> In e l -> plain (fst (fst (fst e))) = true /\ plain (snd (fst (fst e))) = true.
Proof. intros G HI. destruct (proj1 (Forall_forall _ _) G e HI) as (A & B & _). now split. Qed.
Lemma scan_store w l i : w_redis w = enc l -> good l -> plain i = true ->
  scan w (store_label i ++ ":*")%string = map ekey (rstore l i).
Proof.
  intros E G P. unfold scan, rstore. rewrite E. apply filter_enc. intros e HI.
  destruct (good_in l e G HI) as [A B]. unfold ekey. now rewrite match_store.
Qed.
Lemma scan_type w l i t : w_redis w = enc l -> good l -> plain i = true -> plain t = true ->
  scan w (store_label i ++ ":" ++ t ++ ":*")%string =
  map ekey (filter (fun e : rkey * obj => String.eqb t (snd (fst (fst e)))) (rstore l i)).
Proof.
  intros E G P Q. unfold scan, rstore. rewrite E.
  rewrite (filter_enc _ (fun e : rkey * obj => String.eqb i (fst (fst (fst e))) && String.eqb t (snd (fst (fst e))))).
  - f_equal. clear. induction l as [|e l IH]; [reflexivity|]. simpl. destruct (String.eqb i _); simpl; [|exact IH].
    destruct (String.eqb t _); simpl; [f_equal; exact IH|exact IH].
  - intros e HI. destruct (good_in l e G HI) as [A B]. unfold ekey. now rewrite match_type.
Qed.

(** ** Calls *)
Definition Inv (w : world) (l : rreg) : Prop :=
  w_redis w = enc l /\ NoDup (map fst l) /\ good l /\ plain_objects w.
Lemma Inv_holds w l : server_holds w l -> plain_objects w -> Inv w l.
Proof. intros (A & B & C) D. repeat split; assumption. Qed.
Lemma Inv_server w l : Inv w l -> server_holds w l.
Proof. intros (A & B & C & D). repeat split; assumption. Qed.

Lemma loads_ok a keys w os :
  Forall2 (fun k o => dget (w_redis w) k = Some o) keys os ->
  mapM (redis_load a) keys w =
    (set_heap w (w_heap w ++ map (given_to a) os), Ok (seq (length (w_heap w)) (length os))).
Proof.
  intros F. destruct (redis_loads a keys w) as (news & rs & r & E & X). rewrite E.
  assert (rmapM (fun k => match dget (w_redis w) k with
                          | Some o => Ok (set_o_adapter o (Some a))
                          | None => Err ObjectNotFound end) keys = Ok (map (given_to a) os)) as R.
  { clear - F. induction F as [|k o ks os E F IH]; [reflexivity|]. simpl. rewrite E. simpl. now rewrite IH. }
  rewrite R in X. destruct X as (-> & -> & ->). now rewrite map_length.
Qed.
Lemma nth_seq_news (h news : list obj) : map (nth_error (h ++ news)) (seq (length h) (length news)) = map Some news.
Proof.
  revert h. induction news as [|o news IH]; intros h; [reflexivity|]. simpl. f_equal.
  - rewrite nth_error_app2, Nat.sub_diag by lia. reflexivity.
  - specialize (IH (h ++ [o])). rewrite <- app_assoc in IH. simpl in IH. rewrite app_length in IH. simpl in IH.
    now rewrite Nat.add_1_r in IH.
Qed.
Lemma plain_objects_app w news : plain_objects w -> Forall (fun o => plain (get_type o) = true) news ->
  plain_objects (set_heap w (w_heap w ++ news)).
Proof. intros A B. unfold plain_objects. simpl. now apply Forall_app. Qed.
Lemma plain_objects_set w r o : plain_objects w -> plain (get_type o) = true ->
  plain_objects (set_heap w (list_set (w_heap w) r o)).
Proof.
  intros A B. unfold plain_objects in *. simpl. revert r. induction A as [|x h X A IH]; intros r; [destruct r; constructor|].
  destruct r; simpl; constructor; auto.
Qed.
Lemma rfind_in l i t u o : rfind l i t u = Some o -> In (i, t, u, o) l.
Proof.
  unfold rfind. destruct (find _ l) as [e|] eqn:F; [|discriminate]. intros E. injection E as <-.
  apply find_some in F as [HI K]. apply rkey_true in K. destruct e as [k o]. simpl in *. now subst k.
Qed.
Lemma good_type l i t u o : good l -> In (i, t, u, o) l -> plain (get_type o) = true.
Proof. intros G HI. destruct (proj1 (Forall_forall _ _) G _ HI) as (_ & B & C). simpl in *. now rewrite C. Qed.
Lemma entry_get l e : good l -> NoDup (map fst l) -> In e l -> dget (enc l) (ekey e) = Some (snd e).
Proof.
  intros G N HI. destruct (good_in l e G HI) as [A B]. destruct e as [[[i t] u] o]. unfold ekey. simpl in *.
  rewrite enc_get by assumption. unfold rfind. clear G A B. induction l as [|x l IH]; [easy|].
  inversion N as [|y z N1 N2]; subst y z. cbn [find]. destruct HI as [->|HI].
  - now rewrite rkey_refl.
  - destruct (rkey_eqb i t u x) eqn:E; [|now apply IH]. apply rkey_true in E. contradiction N1. rewrite E.
    apply in_map_iff. exists (i, t, u, o). now split.
Qed.

Lemma mapM_same {A B C} (f : A -> M world B) (h : A -> C) (g : C -> M world B) (P : world -> Prop) l :
  (forall x w, P w -> f x w = g (h x) w /\ P (fst (g (h x) w))) -> forall w, P w -> mapM f l w = mapM g (map h l) w.
Proof.
  intros H. induction l as [|x l IH]; intros w HP; [reflexivity|]. cbn [mapM map]. unfold bind.
  destruct (H x w HP) as [E HP']. rewrite E. destruct (g (h x) w) as [w1 [y|e]]; [|reflexivity]. cbn [fst] in HP'.
  now rewrite (IH w1 HP').
Qed.
Lemma by_uids_loads w a ad i us m : nth_error (w_ads w) a = Some ad -> ad_store ad = SRedis i ->
  st_get_by_uids a us m w = mapM (redis_load a) (map (redis_key i (spec_name m)) us) w.
Proof.
  intros HA HS. unfold st_get_by_uids. apply (mapM_same _ (redis_key i (spec_name m)) (redis_load a) (fun w' => w_ads w' = w_ads w)); [|reflexivity].
  intros u w' E. split.
  - unfold bind at 1, get_adapter. rewrite E, HA, HS. reflexivity.
  - unfold redis_load. now destruct (dget _ _).
Qed.

Section Call.
  Variables (w : world) (l : rreg) (a : aid) (ad : adapter) (i : string).
  Hypothesis HA : nth_error (w_ads w) a = Some ad.
  Hypothesis HS : ad_store ad = SRedis i.
  Hypothesis Pi : plain i = true.
  Hypothesis HI : Inv w l.

  Lemma sid_is : store_id w a = i.
  Proof. unfold store_id. now rewrite HA, HS. Qed.

  Definition simulated (op : sop) : Prop :=
    snd (rexec a op w) = snd (rspec a i (w_heap w) l op) /\
    Inv (fst (exec a op w)) (fst (rspec a i (w_heap w) l op)) /\ w_ads (fst (exec a op w)) = w_ads w.

  Lemma run_load t u : plain t = true ->
    redis_load a (redis_key i t u) w =
    match rfind l i t u with
    | Some o => halloc (given_to a o) w
    | None => (w, Err ObjectNotFound)
    end.
  Proof. intros P. unfold redis_load. destruct HI as (E & N & G & O). rewrite E, enc_get by assumption. reflexivity. Qed.
  Lemma run_get t u : plain t = true ->
    st_get a (MName t) (IdStr u) w =
    match rfind l i t u with
    | Some o => halloc (given_to a o) w
    | None => (w, Err ObjectNotFound)
    end.
  Proof.
    intros P. unfold st_get, bind at 1, get_adapter. rewrite HA. simpl. unfold bind, lift. simpl. rewrite HS. now apply run_load.
  Qed.
  Lemma Inv_alloc o : plain (get_type o) = true -> Inv (fst (halloc o w)) l.
  Proof. intros P. destruct HI as (E & N & G & O). repeat split; [exact E|exact N|exact G|]. apply plain_objects_app; [exact O|repeat constructor; exact P]. Qed.

  Lemma run_remove_item t u : plain t = true ->
    st_remove_item a t u w =
    match rfind l i t u with
    | Some o => (set_redis w (enc (rdel l i t u)), Ok tt)
    | None => (w, Err ObjectNotFound)
    end.
  Proof.
    intros P. destruct HI as (E & N & G & O). unfold st_remove_item, bind at 1, get_adapter. rewrite HA, HS. unfold bind, get_state.
    rewrite E, enc_get by assumption. destruct (rfind l i t u); [|reflexivity]. unfold modify. rewrite E, enc_del by assumption. reflexivity.
  Qed.
  Lemma Inv_del t u : Inv (set_redis w (enc (rdel l i t u))) (rdel l i t u).
  Proof. destruct HI as (E & N & G & O). split; [reflexivity|]. split; [now apply nodup_del|]. split; [now apply good_del|exact O]. Qed.
  Lemma Inv_put t u o : plain t = true -> get_type o = t -> Inv (set_redis w (enc (rput l i t u o))) (rput l i t u o).
  Proof. intros P T. destruct HI as (E & N & G & O). split; [reflexivity|]. split; [now apply nodup_put|]. split; [now apply good_put|exact O]. Qed.

  Lemma sim_get t u : plain t = true -> simulated (SGet t u).
  Proof.
    intros P. unfold simulated, rexec. cbn [exec rspec fst snd]. unfold omap, bind. rewrite (run_get t u P).
    destruct (rfind l i t u) as [o|] eqn:F; [|(split; [reflexivity|split; [exact HI|reflexivity]])].
    unfold halloc, ret. cbn [fst snd rres view w_heap set_heap]. rewrite nth_error_app2, Nat.sub_diag by lia.
    split; [reflexivity|]. split; [|reflexivity]. apply (Inv_alloc (given_to a o)).
    destruct HI as (E & N & G & O). exact (good_type l i t u o G (rfind_in _ _ _ _ _ F)).
  Qed.
  Lemma sim_get_or_none t u : plain t = true -> simulated (SGetOrNone t u).
  Proof.
    intros P. unfold simulated, rexec. cbn [exec rspec fst snd]. unfold omap, ad_get_or_none, try_catch, bind.
    rewrite (run_get t u P). destruct (rfind l i t u) as [o|] eqn:F; [|(split; [reflexivity|split; [exact HI|reflexivity]])].
    unfold halloc, ret. cbn [fst snd rres view w_heap set_heap]. rewrite nth_error_app2, Nat.sub_diag by lia.
    split; [reflexivity|]. split; [|reflexivity]. apply (Inv_alloc (given_to a o)).
    destruct HI as (E & N & G & O). exact (good_type l i t u o G (rfind_in _ _ _ _ _ F)).
  Qed.
  Lemma sim_get_all t : plain t = true -> simulated (SGetAll t).
  Proof.
    intros P. destruct HI as (E & N & G & O). unfold simulated, rexec. cbn [exec rspec fst snd].
    unfold omap, st_get_all, bind, get_adapter. rewrite HA, HS. unfold get_state. cbn [spec_name].
    rewrite (scan_type w l i t E G Pi P). set (es := filter (fun e : rkey * obj => String.eqb t (snd (fst (fst e)))) (rstore l i)).
    assert (forall e, In e es -> In e l) as SUB.
    { intros e H. unfold es, rstore in H. apply filter_In in H as [H _]. now apply filter_In in H as [H _]. }
    rewrite (loads_ok a (map ekey es) w (map snd es)).
    2:{ clear - SUB E N G. induction es as [|e es IH]; constructor.
        - rewrite E. apply entry_get; [exact G|exact N|]. apply SUB. now left.
        - apply IH. intros x H. apply SUB. now right. }
    unfold ret. cbn [fst snd rres view w_heap set_heap].
    rewrite <- (map_length (given_to a) (map snd es)), nth_seq_news.
    split; [unfold rtype; fold es; now rewrite !map_map|]. split; [|reflexivity].
    split; [exact E|]. split; [exact N|]. split; [exact G|]. apply plain_objects_app; [exact O|].
    apply Forall_forall. intros o H. apply in_map_iff in H as (x & <- & H). apply in_map_iff in H as (e & <- & H).
    destruct e as [[[i' t'] u'] o']. exact (good_type _ _ _ _ _ G (SUB _ H)).
  Qed.
  Lemma sim_by_uids us t : plain t = true -> simulated (SByUids us t).
  Proof.
    intros P. destruct HI as (E & N & G & O). unfold simulated, rexec. cbn [exec rspec fst snd]. unfold omap, bind.
    assert (forall w', w_ads w' = w_ads w -> st_get_by_uids a us (MName t) w' = mapM (redis_load a) (map (redis_key i t) us) w') as R.
    { intros w' X. rewrite (by_uids_loads w' a ad i us (MName t)); [reflexivity|now rewrite X|exact HS]. }
    rewrite (R w eq_refl). clear R.
    destruct (redis_loads a (map (redis_key i t) us) w) as (news & rs & r & L & X). rewrite L.
    assert (rmapM (fun k => match dget (w_redis w) k with
                          | Some o => Ok (set_o_adapter o (Some a))
                          | None => Err ObjectNotFound end) (map (redis_key i t) us) =
            rbind (rfind_all l i t us) (fun os => Ok (map (given_to a) os))) as R.
    { clear - E G Pi P. rewrite E. induction us as [|u us IH]; [reflexivity|]. cbn [map rmapM rfind_all]. rewrite enc_get by assumption.
      destruct (rfind l i t u); [|reflexivity]. cbn [rbind]. rewrite IH. now destruct (rfind_all l i t us). }
    rewrite R in X. clear R. destruct (rfind_all l i t us) as [os|e] eqn:F; cbn [rbind] in X |- *.
    - destruct X as (-> & -> & ->). unfold ret. cbn [fst snd rres view w_heap set_heap]. rewrite nth_seq_news.
      split; [now rewrite map_map|]. split; [|reflexivity]. split; [exact E|]. split; [exact N|]. split; [exact G|].
      apply plain_objects_app; [exact O|]. clear - F G. revert os F. induction us as [|u us IH]; intros os F; cbn [rfind_all] in F.
      + injection F as <-. constructor.
      + destruct (rfind l i t u) as [o|] eqn:FF; [|discriminate]. destruct (rfind_all l i t us) as [os'|]; [|discriminate].
        cbn [rbind] in F. injection F as <-. cbn [map]. constructor; [|now apply IH].
        exact (good_type _ _ _ _ _ G (rfind_in _ _ _ _ _ FF)).
    - subst r. cbn [fst snd rres]. split; [reflexivity|]. split; [|reflexivity].
      split; [exact E|]. split; [exact N|]. split; [exact G|]. apply plain_objects_app; [exact O|].
      pose proof (f_equal fst L) as L1. cbn [fst] in L1. clear - L1 E G Pi P O.
      assert (forall ks w1, (forall k, In k ks -> forall o, dget (w_redis w1) k = Some o -> plain (get_type o) = true) -> plain_objects w1 ->
              plain_objects (fst (mapM (redis_load a) ks w1))) as H.
      { induction ks as [|k ks IH]; intros w1 H O1; [exact O1|]. cbn [mapM]. unfold bind, redis_load at 1.
        destruct (dget (w_redis w1) k) as [o|] eqn:D; [|exact O1]. unfold halloc at 1.
        set (w2 := set_heap w1 _). specialize (IH w2). destruct (mapM (redis_load a) ks w2) as [w3 [rs|e]] eqn:M; cbn [fst] in *;
          (apply IH; [intros k' K; apply (H k'); now right|apply plain_objects_app; [exact O1|repeat constructor; apply (H k) with (o := o); [now left|exact D]]]). }
      specialize (H (map (redis_key i t) us) w). rewrite L1 in H.
      assert (plain_objects (set_heap w (w_heap w ++ news))) as K.
      { apply H; [|exact O]. intros k HK o D. apply in_map_iff in HK as (u & <- & _). rewrite E, enc_get in D by assumption.
        exact (good_type _ _ _ _ _ G (rfind_in _ _ _ _ _ D)). }
      unfold plain_objects in K. simpl in K. now apply Forall_app in K.
  Qed.
  Lemma sim_count : simulated SCount.
  Proof.
    destruct HI as (E & N & G & O). unfold simulated, rexec. cbn [exec rspec fst snd].
    unfold omap, st_count, bind, get_adapter. rewrite HA, HS. unfold get_state, ret, count_all. rewrite HA, HS.
    cbn [fst snd rres view]. rewrite (scan_store w l i E G Pi), map_length. split; [reflexivity|]. now split.
  Qed.
  Lemma sim_new o : plain (get_type o) = true -> simulated (SNew o).
  Proof.
    intros P. unfold simulated, rexec. cbn [exec rspec fst snd]. unfold omap, bind, halloc, ret.
    cbn [fst snd rres view w_heap set_heap]. rewrite nth_error_app2, Nat.sub_diag by lia.
    split; [reflexivity|]. split; [|reflexivity]. exact (Inv_alloc o P).
  Qed.
  Lemma sim_assign r o : plain (get_type o) = true -> simulated (SAssign r o).
  Proof.
    intros P. destruct HI as (E & N & G & O). unfold simulated, rexec. cbn [exec rspec fst snd]. unfold omap, bind, hset, modify, ret.
    cbn [fst snd rres view]. split; [reflexivity|]. split; [|reflexivity]. split; [exact E|]. split; [exact N|]. split; [exact G|].
    now apply plain_objects_set.
  Qed.
  Lemma sim_remove_item t u : plain t = true -> simulated (SRemoveItem t u).
  Proof.
    intros P. unfold simulated, rexec. cbn [exec rspec fst snd]. unfold omap, bind. rewrite (run_remove_item t u P).
    destruct (rfind l i t u); unfold ret; cbn [fst snd rres view]; (split; [reflexivity|]; split; [|reflexivity]).
    - apply Inv_del. - exact HI.
  Qed.
  Lemma heap_type r o : nth_error (w_heap w) r = Some o -> plain (get_type o) = true.
  Proof. intros H. destruct HI as (E & N & G & O). exact (proj1 (Forall_forall _ _) O o (nth_error_In _ _ H)). Qed.

  Lemma sim_remove r : simulated (SRemove r).
  Proof.
    unfold simulated, rexec. cbn [exec rspec fst snd]. unfold omap, rwith_key. cbn [st_remove]. unfold bind, hget.
    destruct (nth_error (w_heap w) r) as [o|] eqn:H; [|(split; [reflexivity|split; [exact HI|reflexivity]])].
    unfold lift. destruct (get_unique_id o) as [u|e]; [|(split; [reflexivity|split; [exact HI|reflexivity]])]. pose proof (heap_type r o H) as P.
    rewrite (run_remove_item _ u P). destruct (rfind l i (get_type o) u) as [x|]; [|(split; [reflexivity|split; [exact HI|reflexivity]])].
    unfold clear_adapter, bind, hget. cbn [w_heap set_redis]. rewrite H. unfold get_state.
    pose proof (Inv_del (get_type o) u) as (E' & N' & G' & O').
    destruct (adapter_truthy _ _); unfold hset, modify, ret; cbn [fst snd rres view]; (split; [reflexivity|]; split; [|reflexivity]).
    - split; [exact E'|]. split; [exact N'|]. split; [exact G'|]. apply plain_objects_set; [exact O'|exact P].
    - split; [exact E'|]. split; [exact N'|]. split; [exact G'|exact O'].
  Qed.
  Lemma sim_update r : simulated (SUpdate r).
  Proof.
    unfold simulated, rexec. cbn [exec rspec fst snd]. unfold omap, rwith_key, st_update. unfold bind, hget.
    destruct (nth_error (w_heap w) r) as [o|] eqn:H; [|(split; [reflexivity|split; [exact HI|reflexivity]])].
    unfold lift. destruct (get_unique_id o) as [u|e]; [|(split; [reflexivity|split; [exact HI|reflexivity]])]. pose proof (heap_type r o H) as P.
    unfold get_adapter. rewrite HA, HS. unfold redis_put, modify, ret. cbn [fst snd rres view].
    destruct HI as (E & N & G & O). rewrite E, enc_set by assumption. split; [reflexivity|]. split; [|reflexivity].
    now apply Inv_put.
  Qed.
  Lemma sim_add r : simulated (SAdd r).
  Proof.
    unfold simulated, rexec. cbn [exec rspec fst snd]. unfold omap, rwith_key, st_add. unfold bind, hget.
    destruct (nth_error (w_heap w) r) as [o|] eqn:H; [|(split; [reflexivity|split; [exact HI|reflexivity]])].
    unfold lift. destruct (get_unique_id o) as [u|e]; [|(split; [reflexivity|split; [exact HI|reflexivity]])]. pose proof (heap_type r o H) as P.
    unfold get_adapter. rewrite HA, HS. unfold get_state.
    pose proof HI as (E & N & G & O). rewrite E, enc_get by assumption.
    destruct (rfind l i (get_type o) u) as [x|] eqn:F.
    - destruct (dump_eq x o); unfold ret, raise; cbn [fst snd rres view]; (split; [reflexivity|split; [exact HI|reflexivity]]).
    - unfold redis_put, modify, ret. cbn [fst snd rres view]. rewrite E, enc_set by assumption.
      split; [reflexivity|]. split; [|reflexivity].
      replace (l ++ [(i, get_type o, u, snapshot o)]) with (rput l i (get_type o) u (snapshot o)).
      + now apply Inv_put.
      + unfold rput. unfold rfind in F. now destruct (find _ l).
  Qed.
  Lemma sim op : op_plain op -> simulated op.
  Proof.
    destruct op; intros P; [apply sim_add|apply sim_update|apply sim_remove|now apply sim_remove_item|now apply sim_get|
      now apply sim_get_or_none|now apply sim_get_all|now apply sim_by_uids|apply sim_count|now apply sim_new|now apply sim_assign].
  Qed.
End Call.

(** ** Histories *)
Lemma rexec_fst a op w : fst (rexec a op w) = fst (exec a op w).
Proof. unfold rexec. now destruct (exec a op w). Qed.
Lemma redis_history ops : forall w l, Inv w l ->
  Forall (fun x => on_plain_redis w (fst x) /\ op_plain (snd x)) ops ->
  snd (rexec_all ops w) = snd (rspec_all ops w l) /\
  Inv (fst (rexec_all ops w)) (fst (rspec_all ops w l)) /\ w_ads (fst (rexec_all ops w)) = w_ads w.
Proof.
  induction ops as [|[a op] ops IH]; intros w l HI F; [now (split; [reflexivity|split; [exact HI|reflexivity]])|].
  inversion F as [|x y [(ad & i & HA & HS & P) Q] F']; subst x y. cbn [fst snd] in *.
  destruct (sim w l a ad i HA HS P HI op Q) as (S1 & S2 & S3). cbn [rexec_all rspec_all].
  rewrite (sid_is w a ad i HA HS). pose proof (rexec_fst a op w) as X.
  destruct (rexec a op w) as [w1 o] eqn:E1. cbn [fst] in X. subst w1.
  destruct (rspec a i (w_heap w) l op) as [l1 o'] eqn:E2. cbn [fst snd] in *. subst o'.
  destruct (IH (fst (exec a op w)) l1 S2) as (T1 & T2 & T3).
  { rewrite Forall_forall in *. intros z HZ. destruct (F' z HZ) as [Z1 Z2]. split; [|exact Z2].
    unfold on_plain_redis in *. now rewrite S3. }
  destruct (rexec_all ops (fst (exec a op w))) as [w2 os]. destruct (rspec_all ops (fst (exec a op w)) l1) as [l2 os'].
  cbn [fst snd] in *. subst os'. now rewrite <- S3.
Qed.

Lemma redis_register (l : rreg) i t u i' t' u' o : NoDup (map fst l) ->
  rfind (rput l i t u o) i t u = Some o /\
  rfind (rdel l i t u) i t u = None /\
  ((i', t', u') <> (i, t, u) ->
     rfind (rput l i t u o) i' t' u' = rfind l i' t' u' /\ rfind (rdel l i t u) i' t' u' = rfind l i' t' u').
Proof.
  intros N.
  assert (forall x, (i', t', u') <> (i, t, u) -> rkey_eqb i t u x = true -> rkey_eqb i' t' u' x = false) as DIS.
  { intros x NE X. apply rkey_true in X. destruct (rkey_eqb i' t' u' x) eqn:Y; [|reflexivity]. apply rkey_true in Y. congruence. }
  split; [|split; [|intros NE; split]].
  - unfold rput, rfind. destruct (find (rkey_eqb i t u) l) as [x|] eqn:F.
    + clear N DIS. induction l as [|e l IH]; [discriminate|]. cbn [find map] in *. destruct (rkey_eqb i t u e) eqn:E; [now rewrite rkey_refl|].
      rewrite E. now apply IH.
    + clear N DIS. induction l as [|e l IH]; cbn [find app] in *; [now rewrite rkey_refl|].
      destruct (rkey_eqb i t u e); [discriminate|now apply IH].
  - unfold rdel, rfind. clear N DIS. induction l as [|e l IH]; [reflexivity|]. cbn [filter]. destruct (rkey_eqb i t u e) eqn:E; cbn [negb find]; [exact IH|].
    now rewrite E.
  - unfold rput, rfind. destruct (find (rkey_eqb i t u) l) as [x|] eqn:F.
    + clear N F. induction l as [|e l IH]; [reflexivity|]. cbn [find map]. destruct (rkey_eqb i t u e) eqn:E.
      * rewrite (DIS (i, t, u, o) NE (rkey_refl i t u o)), (DIS e NE E). exact IH.
      * destruct (rkey_eqb i' t' u' e); [reflexivity|exact IH].
    + clear N F. induction l as [|e l IH]; cbn [find app]; [now rewrite (DIS (i, t, u, o) NE (rkey_refl i t u o))|].
      destruct (rkey_eqb i' t' u' e); [reflexivity|exact IH].
  - unfold rdel, rfind. clear N. induction l as [|e l IH]; [reflexivity|]. cbn [filter find].
    destruct (rkey_eqb i t u e) eqn:E; cbn [negb find].
    + now rewrite (DIS e NE E).
    + destruct (rkey_eqb i' t' u' e); [reflexivity|exact IH].
Qed.

(** ** Isolation *)
Lemma store_other_key i j t u (e : rkey * obj) : i <> j -> rkey_eqb i t u e = true -> String.eqb j (fst (fst (fst e))) = false.
Proof. intros N E. apply rkey_true in E. rewrite E. simpl. apply String.eqb_neq. auto. Qed.
Lemma rstore_put l i j t u o : i <> j -> rstore (rput l i t u o) j = rstore l j.
Proof.
  intros N. unfold rput, rstore. destruct (find _ l) as [x|].
  - induction l as [|e l IH]; [reflexivity|]. cbn [map filter]. rewrite IH. destruct (rkey_eqb i t u e) eqn:E; [|reflexivity].
    rewrite (store_other_key i j t u e N E), (store_other_key i j t u (i, t, u, o) N (rkey_refl i t u o)). reflexivity.
  - rewrite filter_app. cbn [filter]. rewrite (store_other_key i j t u (i, t, u, o) N (rkey_refl i t u o)). apply app_nil_r.
Qed.
Lemma rstore_del l i j t u : i <> j -> rstore (rdel l i t u) j = rstore l j.
Proof.
  intros N. unfold rdel, rstore. induction l as [|e l IH]; [reflexivity|]. cbn [filter].
  destruct (rkey_eqb i t u e) eqn:E; cbn [negb filter].
  - now rewrite (store_other_key i j t u e N E).
  - now rewrite IH.
Qed.
Lemma rspec_other a i j h l op : i <> j -> rstore (fst (rspec a i h l op)) j = rstore l j.
Proof.
  intros N. destruct op; cbn [rspec]; unfold rwith_key; try reflexivity.
  - destruct (nth_error h r) as [o|]; [|reflexivity]. destruct (get_unique_id o) as [u|]; [|reflexivity].
    destruct (rfind l i (get_type o) u) as [x|] eqn:F; [reflexivity|]. cbn [fst].
    replace (l ++ [(i, get_type o, u, snapshot o)]) with (rput l i (get_type o) u (snapshot o)); [now apply rstore_put|].
    unfold rput. unfold rfind in F. now destruct (find _ l).
  - destruct (nth_error h r) as [o|]; [|reflexivity]. destruct (get_unique_id o) as [u|]; [|reflexivity]. now apply rstore_put.
  - destruct (nth_error h r) as [o|]; [|reflexivity]. destruct (get_unique_id o) as [u|]; [|reflexivity].
    destruct (rfind l i (get_type o) u); [now apply rstore_del|reflexivity].
  - destruct (rfind l i t u); [now apply rstore_del|reflexivity].
Qed.
Lemma rfind_store l i t u : rfind (rstore l i) i t u = rfind l i t u.
Proof.
  unfold rfind, rstore. induction l as [|e l IH]; [reflexivity|]. cbn [filter find].
  destruct (String.eqb i (fst (fst (fst e)))) eqn:E; cbn [find].
  - destruct (rkey_eqb i t u e); [reflexivity|exact IH].
  - unfold rkey_eqb at 2. rewrite E. exact IH.
Qed.
Lemma rspec_reads a i h h' l l' op : reads op -> rstore l i = rstore l' i ->
  snd (rspec a i h l op) = snd (rspec a i h' l' op).
Proof.
  intros R E. assert (forall t u, rfind l i t u = rfind l' i t u) as F.
  { intros t u. now rewrite <- (rfind_store l), <- (rfind_store l'), E. }
  destruct op; try easy; cbn [rspec snd].
  - now rewrite F.
  - now rewrite F.
  - unfold rtype. now rewrite E.
  - f_equal. induction us as [|u us IH]; [reflexivity|]. cbn [rfind_all]. now rewrite F, IH.
  - now rewrite E.
Qed.
Lemma rspec_all_other ops : forall w l j, Inv w l ->
  Forall (fun x => on_plain_redis w (fst x) /\ op_plain (snd x) /\ store_id w (fst x) <> j) ops ->
  rstore (fst (rspec_all ops w l)) j = rstore l j.
Proof.
  induction ops as [|[a op] ops IH]; intros w l j HI F; [reflexivity|]. cbn [rspec_all].
  inversion F as [|x y ((ad & i & HA & HS & P) & Q & N) F']; subst x y. cbn [fst snd] in *.
  rewrite (sid_is w a ad i HA HS) in *. destruct (sim w l a ad i HA HS P HI op Q) as (S1 & S2 & S3).
  pose proof (rspec_other a i j (w_heap w) l op N) as O.
  destruct (rspec a i (w_heap w) l op) as [l1 o]. cbn [fst snd] in *.
  specialize (IH (fst (exec a op w)) l1 j S2). destruct (rspec_all ops (fst (exec a op w)) l1) as [l2 os]. cbn [fst] in *.
  rewrite IH; [exact O|]. rewrite Forall_forall in *. intros z HZ. destruct (F' z HZ) as (Z1 & Z2 & Z3).
  split; [|split; [exact Z2|]].
  - unfold on_plain_redis in *. now rewrite S3.
  - unfold store_id in *. now rewrite S3.
Qed.
Lemma isolated w l ops b q : server_holds w l -> plain_objects w ->
  Forall (fun x => on_plain_redis w (fst x) /\ op_plain (snd x) /\ store_id w (fst x) <> store_id w b) ops ->
  on_plain_redis w b -> op_plain q -> reads q ->
  snd (rexec b q (fst (rexec_all ops w))) = snd (rexec b q w).
Proof.
  intros H O F (ad & i & HA & HS & P) Q R. pose proof (Inv_holds w l H O) as HI.
  assert (Forall (fun x => on_plain_redis w (fst x) /\ op_plain (snd x)) ops) as F2.
  { rewrite Forall_forall in *. intros x HX. destruct (F x HX) as (X & Y & _). now split. }
  destruct (redis_history ops w l HI F2) as (_ & HI' & A). pose proof HA as HA'. rewrite <- A in HA'.
  destruct (sim w l b ad i HA HS P HI q Q) as (S1 & _). destruct (sim _ _ b ad i HA' HS P HI' q Q) as (S2 & _).
  rewrite S1, S2. apply rspec_reads; [exact R|]. rewrite <- (sid_is w b ad i HA HS). now apply rspec_all_other.
Qed.

(** ** Model names *)
Lemma sdedup_in x l : In x (sdedup l) <-> In x l.
Proof.
  induction l as [|y l IH]; [reflexivity|]. cbn [sdedup]. destruct (smem y l) eqn:M.
  - rewrite IH. split; [now right|]. intros [<-|H]; [|exact H]. now apply smem_In.
  - simpl. now rewrite IH.
Qed.
Lemma sdedup_nodup l : NoDup (sdedup l).
Proof.
  induction l as [|y l IH]; [constructor|]. cbn [sdedup]. destruct (smem y l) eqn:M; [exact IH|]. constructor; [|exact IH].
  rewrite sdedup_in. intros H. apply smem_In in H. congruence.
Qed.
Lemma redis_names w l a ad i : server_holds w l -> nth_error (w_ads w) a = Some ad -> ad_store ad = SRedis i -> plain i = true ->
  exists names, st_get_all_model_names a w = (w, Ok names) /\ NoDup names /\
    forall t, In t names <-> rtype l i t <> [].
Proof.
  intros (E & N & G) HA HS P. unfold st_get_all_model_names, bind, get_adapter, get_state. rewrite HA, HS.
  eexists. split; [reflexivity|]. split; [apply sdedup_nodup|]. intros t. rewrite sdedup_in.
  rewrite (scan_store w l i E G P). rewrite map_map. unfold rtype. split.
  - intros H. apply in_map_iff in H as (e & X & H). pose proof H as H'. unfold rstore in H. apply filter_In in H as [H _].
    destruct (good_in l e G H) as [A B]. unfold ekey in X. rewrite name_of_key in X by assumption.
    assert (In e (filter (fun e : rkey * obj => String.eqb t (snd (fst (fst e)))) (rstore l i))) as K.
    { apply filter_In. split; [exact H'|]. apply String.eqb_eq. now symmetry. }
    intros Z. apply map_eq_nil in Z. now rewrite Z in K.
  - intros H. destruct (filter (fun e : rkey * obj => String.eqb t (snd (fst (fst e)))) (rstore l i)) as [|e es] eqn:F; [easy|].
    assert (In e (filter (fun e : rkey * obj => String.eqb t (snd (fst (fst e)))) (rstore l i))) as K by (rewrite F; now left).
    apply filter_In in K as [K1 K2]. apply String.eqb_eq in K2. apply in_map_iff. exists e. split; [|exact K1].
    unfold rstore in K1. apply filter_In in K1 as [K1 _]. destruct (good_in l e G K1) as [A B].
    unfold ekey. rewrite name_of_key by assumption. now symmetry.
Qed.

(** ** C25 on Redis: no restriction on names *)
Lemma by_uids_redis a us m w : has_redis w a ->
  (forall os, (exists rs, snd (st_get_by_uids a us m w) = Ok rs /\
                 map (nth_error (w_heap (fst (st_get_by_uids a us m w)))) rs = map Some os) <->
              Forall2 (fun u o => option_map (given_to a) (stored w a (spec_name m) u) = Some o) us os) /\
  (forall e, snd (st_get_by_uids a us m w) = Err e <->
             e = ObjectNotFound /\ exists u, In u us /\ stored w a (spec_name m) u = None).
Proof.
  intros (ad & i & HA & HS). rewrite (by_uids_loads w a ad i us m HA HS).
  unfold stored. rewrite (sid_is w a ad i HA HS).
  destruct (redis_loads a (map (redis_key i (spec_name m)) us) w) as (news & rs & r & L & X). rewrite L. cbn [fst snd].
  set (f := fun u => option_map (given_to a) (dget (w_redis w) (redis_key i (spec_name m) u))).
  assert (match rmapM (fun k => match dget (w_redis w) k with
                          | Some o => Ok (set_o_adapter o (Some a))
                          | None => Err ObjectNotFound end) (map (redis_key i (spec_name m)) us) with
          | Ok os => Forall2 (fun u o => f u = Some o) us os
          | Err e => e = ObjectNotFound /\ exists u, In u us /\ dget (w_redis w) (redis_key i (spec_name m) u) = None
          end) as R.
  { clear. unfold f. induction us as [|u us IH]; [constructor|]. cbn [map rmapM].
    destruct (dget (w_redis w) (redis_key i (spec_name m) u)) as [o|] eqn:D; cbn [rbind].
    - destruct (rmapM _ (map _ us)) as [os|e]; cbn [rbind].
      + constructor; [now rewrite D|exact IH].
      + destruct IH as (-> & u' & H1 & H2). split; [reflexivity|]. exists u'. split; [now right|exact H2].
    - split; [reflexivity|]. exists u. split; [now left|exact D]. }
  assert (forall os, Forall2 (fun u o => f u = Some o) us os -> ~ exists u, In u us /\ dget (w_redis w) (redis_key i (spec_name m) u) = None) as C.
  { clear. unfold f. intros os F (u & H & D). induction F as [|x y xs ys E F IH]; [easy|]. destruct H as [->|H]; [now rewrite D in E|auto]. }
  assert (forall os os', Forall2 (fun u o => f u = Some o) us os -> Forall2 (fun u o => f u = Some o) us os' -> os = os') as FUN.
  { clear. intros os os' F. revert os'. induction F as [|x y xs ys E F IH]; intros os' F'; inversion F'; subst; [reflexivity|].
    f_equal; [congruence|now apply IH]. }
  destruct (rmapM _ (map _ us)) as [os0|e0].
  - destruct X as (-> & -> & ->). split.
    + intros os. split.
      * intros (rs & E & V). injection E as <-. cbn [w_heap set_heap] in V. rewrite nth_seq_news in V.
        assert (os0 = os) as <-; [|exact R]. clear - V. revert os V. induction os0 as [|x os0 IH]; intros [|y os] V; try discriminate; [reflexivity|].
        injection V as <- V. now rewrite (IH os V).
      * intros F. exists (seq (length (w_heap w)) (length os0)). split; [reflexivity|]. cbn [w_heap set_heap].
        rewrite nth_seq_news. now rewrite (FUN _ _ R F).
    + intros e. split; [discriminate|]. intros (_ & H). contradiction (C _ R H).
  - subst r. destruct R as (-> & H). split.
    + intros os. split; [intros (rs' & E & _); discriminate|]. intros F. contradiction (C _ F H).
    + intros e. split; [intros E; injection E as <-; now split|]. intros (-> & _). reflexivity.
Qed.

(** ** C29 *)
Lemma redis_count w a m : has_redis w a -> lower (spec_name m) = spec_name m ->
  exists rs, snd (st_get_all a m w) = Ok rs /\ snd (st_count a (Some m) w) = Ok (length rs).
Proof.
  intros (ad & i & HA & HS) L. unfold st_get_all, st_count, bind, get_adapter, get_state. rewrite HA, HS, L.
  set (p := (store_label i ++ ":" ++ spec_name m ++ ":*")%string).
  assert (exists os, Forall2 (fun k o => dget (w_redis w) k = Some o) (scan w p) os) as (os & F).
  { unfold scan. assert (forall ks, incl ks (dkeys (w_redis w)) ->
      exists os, Forall2 (fun k o => dget (w_redis w) k = Some o) (filter (glob p) ks) os) as H.
    { induction ks as [|k ks IH]; intros I; [exists []; constructor|]. destruct IH as (os & F); [intros x H; apply I; now right|].
      cbn [filter]. destruct (glob p k); [|now exists os]. assert (In k (dkeys (w_redis w))) as K by (apply I; now left).
      destruct (dget (w_redis w) k) as [o|] eqn:D; [exists (o :: os); now constructor|]. apply dget_None in D. contradiction. }
    apply H. apply incl_refl. }
  rewrite (loads_ok a (scan w p) w os F). cbn [snd]. eexists. split; [reflexivity|]. rewrite seq_length. change (@Ok nat (length (scan w p)) = Ok (length os)). f_equal.
  revert F. generalize (scan w p). intros ks F. induction F; simpl; [reflexivity|congruence].
Qed.

(** ** C31 *)
Lemma add_prog_is_add a r w ad i o u : nth_error (w_ads w) a = Some ad -> ad_store ad = SRedis i ->
  nth_error (w_heap w) r = Some o -> get_unique_id o = Ok u ->
  exists d, pruns (w_redis w, add_prog (redis_key i (get_type o) u) o) (d, PEnd (snd (st_add a r w))) /\
    w_redis (fst (st_add a r w)) = d.
Proof.
  intros HA HS H U. unfold st_add, bind, hget, lift, get_adapter, get_state. rewrite H, U, HA, HS.
  unfold add_prog. destruct (dget (w_redis w) (redis_key i (get_type o) u)) as [x|] eqn:D.
  - exists (w_redis w). split; [|now destruct (dump_eq x o)].
    eapply run_step; [constructor|]. rewrite D. destruct (dump_eq x o); apply run_none.
  - eexists. split; [|reflexivity]. eapply run_step; [constructor|]. rewrite D.
    eapply run_step; [constructor|]. apply run_none.
Qed.
Lemma end_stuck d r s : ~ pstep (d, PEnd r) s.
Proof. intros H. inversion H. Qed.
Lemma runs_end d r s : pruns (d, PEnd r) s -> s = (d, PEnd r).
Proof. intros H. inversion H as [|a b c S T]; [reflexivity|]. now apply end_stuck in S. Qed.
Lemma add_runs d key o d' r : pruns (d, add_prog key o) (d', PEnd r) ->
  match dget d key with
  | Some x => d' = d /\ r = (if dump_eq x o then Ok tt else Err ObjectAlreadyExists)
  | None => d' = dset d key (set_o_adapter o None) /\ r = Ok tt
  end.
Proof.
  intros H. inversion H as [|a b c S T]; subst. inversion S; subst.
  destruct (dget d key) as [x|].
  - apply runs_end in T. injection T as -> ->. now split.
  - inversion T as [|a b c S' T']; subst. inversion S'; subst. apply runs_end in T'. injection T' as -> ->. now split.
Qed.
Lemma dump_eq_adapter a b x : dump_eq (set_o_adapter a x) b = dump_eq a b.
Proof. reflexivity. Qed.

(** equality of objects as Python dicts is symmetric and transitive *)
Definition fits {V} (eqv : V -> V -> Prop) (a b : dict V) : Prop :=
  length a = length b /\ forall k v, dget a k = Some v -> exists v', dget b k = Some v' /\ eqv v v'.
Lemma fits_sym {V} (eqv : V -> V -> Prop) a b : NoDup (dkeys a) -> (forall x y, eqv x y -> eqv y x) -> fits eqv a b -> fits eqv b a.
Proof.
  intros N S (L & H). split; [now symmetry|]. intros k v D.
  assert (In k (dkeys a)) as HI.
  { apply (NoDup_length_incl N (l' := dkeys b)).
    - unfold dkeys. rewrite !map_length. now rewrite L.
    - intros x HX. destruct (dget a x) as [y|] eqn:E; [|now apply dget_None in E].
      destruct (H x y E) as (v' & E' & _). destruct (in_dec string_dec x (dkeys b)) as [I|I]; [exact I|]. apply dget_None in I. congruence.
    - destruct (in_dec string_dec k (dkeys b)) as [I|I]; [exact I|]. apply dget_None in I. congruence. }
  destruct (dget a k) as [v0|] eqn:E; [|now apply dget_None in E]. destruct (H k v0 E) as (v' & E' & Q).
  exists v0. split; [reflexivity|]. apply S. congruence.
Qed.
Lemma fits_trans {V} (eqv : V -> V -> Prop) a b c : (forall x y z, eqv x y -> eqv y z -> eqv x z) -> fits eqv a b -> fits eqv b c -> fits eqv a c.
Proof.
  intros T (L & H) (L' & H'). split; [congruence|]. intros k v D. destruct (H k v D) as (v1 & D1 & Q1).
  destruct (H' k v1 D1) as (v2 & D2 & Q2). exists v2. split; [exact D2|]. eauto.
Qed.
Lemma forallb_fits {V} (eqb : V -> V -> bool) (a b : dict V) : NoDup (dkeys a) ->
  Nat.eqb (length a) (length b) && forallb (fun kv => match dget b (fst kv) with Some v => eqb (snd kv) v | None => false end) a = true <->
  fits (fun x y => eqb x y = true) a b.
Proof.
  intros N. rewrite andb_true_iff, Nat.eqb_eq, forallb_forall. split; intros (L & H); (split; [exact L|]).
  - intros k v D. specialize (H (k, v) (dget_Some_In _ _ _ D)). cbn [fst snd] in H. destruct (dget b k) as [v'|]; [|discriminate]. now exists v'.
  - intros (k, v) HI. cbn [fst snd]. destruct (H k v (In_dget _ _ _ N HI)) as (v' & -> & Q). exact Q.
Qed.
Definition list_eqb (x y : list string) : bool := if list_eq_dec string_dec x y then true else false.
Lemma dump_fits a b : dict_ok a ->
  dump_eq a b = true <->
  fits (fun x y => py_eq x y = true) (o_vals a) (o_vals b) /\ fits (fun x y => list_eqb x y = true) (o_kids a) (o_kids b) /\ o_flags a = o_flags b.
Proof.
  intros (N1 & N2). unfold dump_eq. rewrite andb_true_iff, N.eqb_eq. rewrite <- (forallb_fits py_eq _ _ N1), <- (forallb_fits list_eqb _ _ N2).
  unfold dict_eq. rewrite <- !andb_assoc. rewrite !andb_true_iff. unfold list_eqb. tauto.
Qed.
Lemma list_eqb_true x y : list_eqb x y = true <-> x = y.
Proof. unfold list_eqb. destruct (list_eq_dec string_dec x y); split; congruence. Qed.
Lemma fits_iff {V} (eqv : V -> V -> Prop) (a b : dict V) : NoDup (dkeys a) -> NoDup (dkeys b) ->
  fits eqv a b <->
  forall k, match dget a k, dget b k with Some v, Some v' => eqv v v' | None, None => True | _, _ => False end.
Proof.
  intros A B. split.
  - intros F k. assert (F' : fits (fun _ _ => True) b a).
    { apply fits_sym; auto. destruct F as (L & H). split; [exact L|]. intros k0 v0 D0. destruct (H k0 v0 D0) as (v1 & D1 & _). eauto. }
    destruct (dget a k) as [v|] eqn:D.
    + destruct F as (_ & H). destruct (H k v D) as (v' & -> & Q). exact Q.
    + destruct (dget b k) as [v'|] eqn:D'; [|exact I]. destruct F' as (_ & H). destruct (H k v' D') as (v & E & _). congruence.
  - intros H.
    assert (P : forall k, In k (dkeys a) <-> In k (dkeys b)).
    { intros k. specialize (H k). split; intros HI.
      - destruct (in_dec string_dec k (dkeys b)) as [J|J]; [exact J|]. apply dget_None in J. rewrite J in H.
        destruct (dget a k) eqn:E; [destruct H|]. now apply dget_None in E.
      - destruct (in_dec string_dec k (dkeys a)) as [J|J]; [exact J|]. apply dget_None in J. rewrite J in H.
        destruct (dget b k) eqn:E; [destruct H|]. now apply dget_None in E. }
    split.
    + assert (length (dkeys a) = length (dkeys b)) as L; [|unfold dkeys in L; now rewrite !map_length in L].
      apply Nat.le_antisymm; apply NoDup_incl_length; auto; intros k HI; now apply P.
    + intros k v D. specialize (H k). rewrite D in H. destruct (dget b k) as [v'|]; [eauto|destruct H].
Qed.
Lemma dump_same x o : dict_ok x -> dict_ok o ->
  dump_eq x o = true <->
  (forall k, match dget (o_vals x) k, dget (o_vals o) k with
             | Some v, Some v' => py_eq v v' = true
             | None, None => True
             | _, _ => False
             end) /\
  (forall k, dget (o_kids x) k = dget (o_kids o) k) /\ o_flags x = o_flags o.
Proof.
  intros X O. rewrite (dump_fits x o X), (fits_iff _ _ _ (proj1 X) (proj1 O)), (fits_iff _ _ _ (proj2 X) (proj2 O)).
  assert (forall k, match dget (o_kids x) k, dget (o_kids o) k with Some v, Some v' => list_eqb v v' = true | None, None => True | _, _ => False end <->
                    dget (o_kids x) k = dget (o_kids o) k) as E.
  { intros k. destruct (dget (o_kids x) k) as [v|], (dget (o_kids o) k) as [v'|]; unfold list_eqb; try (split; [tauto|discriminate]); [|tauto].
    destruct (list_eq_dec string_dec v v'); split; congruence. }
  split; intros (A & B & C); (split; [exact A|split; [|exact C]]); intros k; apply E, B.
Qed.
Lemma dump_join x a b : dict_ok x -> dict_ok a -> dict_ok b -> dump_eq x a = true -> dump_eq x b = true -> dump_eq a b = true.
Proof.
  intros X A B E1 E2. apply (dump_fits x a X) in E1 as (V1 & K1 & F1). apply (dump_fits x b X) in E2 as (V2 & K2 & F2).
  apply (dump_fits a b A). split; [|split; [|congruence]].
  - apply (fits_trans _ _ (o_vals x)); [intros p q r; apply py_eq_trans| |exact V2]. apply fits_sym; [exact (proj1 X)| |exact V1].
    intros p q. now rewrite py_eq_sym.
  - apply (fits_trans _ _ (o_kids x)); [|apply fits_sym; [exact (proj2 X)| |exact K1]|exact K2].
    + intros p q r. rewrite !list_eqb_true. congruence.
    + intros p q. rewrite !list_eqb_true. congruence.
Qed.
Lemma serial_adds d d1 d2 key o1 o2 r1 r2 : dict_ok o1 -> dict_ok o2 -> (forall x, dget d key = Some x -> dict_ok x) ->
  dump_eq o1 o2 = false ->
  pruns (d, add_prog key o1) (d1, PEnd r1) -> pruns (d1, add_prog key o2) (d2, PEnd r2) ->
  r1 = Err ObjectAlreadyExists \/ r2 = Err ObjectAlreadyExists.
Proof.
  intros K1 K2 K N R1 R2. apply add_runs in R1, R2. destruct (dget d key) as [x|] eqn:D.
  - destruct R1 as (-> & ->). rewrite D in R2. destruct R2 as (-> & ->).
    destruct (dump_eq x o1) eqn:E1; [|now left]. destruct (dump_eq x o2) eqn:E2; [|now right].
    rewrite (dump_join x o1 o2 (K x eq_refl) K1 K2 E1 E2) in N. discriminate.
  - destruct R1 as (-> & ->). rewrite dget_dset_eq in R2. destruct R2 as (-> & ->). right. now rewrite dump_eq_adapter, N.
Qed.
