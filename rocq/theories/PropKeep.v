(** * PropKeep: RedisStores that are edited between synchronisations, by users who write back what they change (C96).

    [change], [realm] and [can_do] are defined in EditSpec.v; [keep_changes], [rows_kept], [on_shelf], [stocks], [vacant] and
    [can_keep_all] in KeepSpec.v.  [rows_kept] only looks at records, changes and which adapters have the same store id. *)
From Verif Require Import RowSample PropAgree PropRow PropFleet PropPool PropEdit KeepEnd.

(** C96.  Several adapters, some with LocalStores and some with RedisStores on one server, possibly with the same
    store id, start empty.  Objects are added, attributes assigned and objects removed, and [update] is called for each object
    that was changed; between that, adapters with a LocalStore are synchronised from any of the others with any flags.  No step
    fails.  At the end each LocalStore has exactly the data of the records that the changes lead to; each RedisStore has
    exactly one entry per record, with its values and children; the server's other entries are as before. *)
Theorem C96_run : forall fuel cs tops U w l,
  vacant w cs tops U -> realm fuel cs tops U -> 2 <= fuel -> can_keep_all cs U (w_ads w) (fun _ => []) l ->
  exists w', keep_changes fuel l w = (w', Ok tt) /\
    (forall a ad, nth_error (w_ads w) a = Some ad -> stocks w' a ad cs (rows_kept cs (w_ads w) l a)) /\
    forall k, (forall ad i s, In ad (w_ads w) -> ad_store ad = SRedis i -> k <> ("diffsync:" ++ i ++ ":" ++ s)%string) ->
      dget (w_redis w') k = dget (w_redis w) k.
Proof.
  intros fuel cs tops U w l VA RL F2 CK. destruct (changes_kept fuel cs tops U w RL F2 VA l _ w (empty_kept cs tops U w VA) CK) as (w' & E & KP). exists w'. split; [exact E|]. split.
  - intros a ad A. exact (kept_stocks cs tops U w _ w' a ad KP A).
  - intros k H. apply (kp_out _ _ _ _ _ _ KP). intros a i s (ad & A & B). apply (H ad); [now apply nth_error_In in A|exact B].
Qed.
Print Assumptions C96_run.

Lemma can_keep_app cs U ads l : forall D m, can_keep_all cs U ads D (l ++ m) <-> can_keep_all cs U ads D l /\ can_keep_all cs U ads (fold_left (keep_rows cs ads) l D) m.
Proof. induction l as [|ch l IH]; intros D m; [cbn; tauto|]. cbn [app can_keep_all fold_left]. rewrite IH. tauto. Qed.
Lemma kept_sync cs ads l c : takes_all c -> sy_src c <> sy_dst c ->
  rows_kept cs ads (l ++ [Sync c]) (sy_dst c) = rows_kept cs ads l (sy_src c) /\ rows_kept cs ads (l ++ [Sync c]) (sy_src c) = rows_kept cs ads l (sy_src c).
Proof.
  intros (B1 & B2) NE. unfold rows_kept. rewrite fold_left_app. cbn [fold_left keep_rows]. unfold pool_call. rewrite Nat.eqb_refl. apply Nat.eqb_neq in NE. rewrite NE. split; [now apply pool_plain|reflexivity].
Qed.

(** After a synchronisation without flags that skip objects the destination has the data of the records that the source
    stocks, whichever store the source has, and the source stocks what it did. *)
Theorem C96_agree : forall fuel cs tops U w l c sa,
  vacant w cs tops U -> realm fuel cs tops U -> 2 <= fuel -> can_keep_all cs U (w_ads w) (fun _ => []) (l ++ [Sync c]) -> takes_all c ->
  nth_error (w_ads w) (sy_src c) = Some sa ->
  exists w1 w' rows, keep_changes fuel l w = (w1, Ok tt) /\ keep_changes fuel (l ++ [Sync c]) w = (w', Ok tt) /\
    stocks w1 (sy_src c) sa cs rows /\ stocks w' (sy_src c) sa cs rows /\ has_data w' (sy_dst c) cs rows.
Proof.
  intros fuel cs tops U w l c sa VA RL F2 CK TA SA. pose proof CK as CK0. apply can_keep_app in CK0 as (CK1 & (((NE & _) & (da & d & DA & DL)) & _)).
  destruct (C96_run fuel cs tops U w l VA RL F2 CK1) as (w1 & E1 & S1 & _). destruct (C96_run fuel cs tops U w _ VA RL F2 CK) as (w' & E & S & _).
  destruct (kept_sync cs (w_ads w) l c TA NE) as (R1 & R2). exists w1, w', (rows_kept cs (w_ads w) l (sy_src c)). split; [exact E1|]. split; [exact E|]. split; [now apply S1|]. split.
  - rewrite <- R2. now apply S.
  - pose proof (S _ da DA) as X. unfold stocks in X. rewrite DL, R1 in X. exact X.
Qed.
Print Assumptions C96_agree.

(** An attribute that is assigned through one adapter arrives in whatever is next synchronised from an adapter with the same
    store, be it the same adapter or another one on the same server. *)
Theorem C96_arrives : forall fuel cs tops U w l a k f v c,
  vacant w cs tops U -> realm fuel cs tops U -> 2 <= fuel ->
  can_keep_all cs U (w_ads w) (fun _ => []) (l ++ [Assign a k f v] ++ [Sync c]) -> takes_all c ->
  same_place (w_ads w) a (sy_src c) = true ->
  exists w' r o v', keep_changes fuel (l ++ [Assign a k f v] ++ [Sync c]) w = (w', Ok tt) /\
    lookup w' (sy_dst c) (fst k) (snd k) = Some r /\ nth_error (w_heap w') r = Some o /\ dget (o_vals o) f = Some v' /\ py_eq v v' = true.
Proof.
  intros fuel cs tops U w l a k f v c VA RL F2 CK TA SP. destruct (C96_run fuel cs tops U w _ VA RL F2 CK) as (w' & E & S & _).
  pose proof CK as CK0. apply can_keep_app in CK0 as (CK1 & CK2). destruct (changes_kept fuel cs tops U w RL F2 VA l _ w (empty_kept cs tops U w VA) CK1) as (w1 & E1 & KP). clear CK1.
  cbn [can_keep_all can_keep can_do app] in CK2. destruct CK2 as (((LA & VV & x & c0 & Ix & Kx & C0 & AT) & _) & (((NE & LS & _) & (da & d & DA & DL)) & _)).
  pose proof (S _ da DA) as H. unfold stocks in H. rewrite DL in H. rewrite app_assoc in H. rewrite (proj1 (kept_sync cs (w_ads w) _ c TA NE)) in H.
  unfold rows_kept in H. rewrite fold_left_app in H. cbn [fold_left keep_rows] in H. set (D := fold_left (keep_rows cs (w_ads w)) l (fun _ => [])) in *. unfold put_all in H. rewrite SP in H. destruct H as (H & _).
  rewrite set_row_eq in H. assert (AK : at_key (row_key cs x) k = true) by now apply at_key_ok.
  destruct (H (new_row cs k f v x) c0) as (r & o & L & N & _ & V & _); [now apply in_map|now rewrite nr_type|].
  destruct (V f) as (v0 & v1 & E0 & E2 & Q); [apply in_app_iff; now right|]. rewrite (nr_new cs k f v x c0 Kx) in E0. injection E0 as <-.
  assert (KN : row_key cs (new_row cs k f v x) = k) by (rewrite (nr_key fuel cs tops U RL (D a) k f v x c0 (kp_of _ _ _ _ _ _ KP _ LA) Kx C0 AT x Ix); exact Kx).
  rewrite KN in L. exists w', r, o, v1. auto.
Qed.
Print Assumptions C96_arrives.

(** Two adapters share a store on a server that has another entry; a third has a LocalStore. *)
Definition w96 : world := mkWorld [] [mk_ad "a" (SRedis "lab"); mk_ad "b" (SLocal []); mk_ad "c" (SRedis "lab")] [("diffsync:old:site:nyc", mk_site "nyc" "west" [] 0 0)]%string [].
Definition l96 : list change :=
  fill94 ++
  [Sync (call79 1 2 0); Assign 2 ("device", "r2")%string "role" (VStr "leaf"); Drop 2 (Some ("device", "r1")%string) ("interface", "r1__eth1")%string; Insert 1 (site "lon" []);
   Sync (call79 1 0 4); Drop 0 (Some ("site", "nyc")%string) ("device", "r1")%string].
Definition end96 (l : list change) : world := fst (keep_changes 20 l w96).
Lemma end96_ok l : snd (keep_changes 20 l w96) = Ok tt -> keep_changes 20 l w96 = (end96 l, Ok tt).
Proof. unfold end96. destruct (keep_changes 20 l w96) as [w r]. cbn [fst snd]. now intros ->. Qed.
Lemma any96 src flags : src = 0 \/ src = 2 -> any_call (w_ads w96) (call79 1 src flags).
Proof.
  intros S. assert (NE : src <> 1) by (destruct S; lia). assert (L3 : src < 3) by (destruct S; lia). destruct (any79 1 src flags) as (A & B & (da & C1 & C2) & D & E); [lia|exact L3|exact NE|].
  split; [exact NE|]. split; [exact L3|]. split; [|split; [exact D|exact E]]. exists (mk_ad "b" (SLocal [])). split; [reflexivity|]. cbn in C1. injection C1 as <-. exact C2.
Qed.
Fixpoint can_keepb (D : aid -> list row) (l : list change) : bool :=
  match l with
  | [] => true
  | Sync (mkCall dst src _ _ _ _) as ch :: l' => Nat.eqb dst 1 && (Nat.eqb src 0 || Nat.eqb src 2) && can_keepb (keep_rows s_classes (w_ads w96) D ch) l'
  | ch :: l' => can_dob D ch && can_keepb (keep_rows s_classes (w_ads w96) D ch) l'
  end.
Lemma can_keepb_ok l : forall D, Forall ours l -> can_keepb D l = true -> can_keep_all s_classes U94 (w_ads w96) D l.
Proof.
  induction l as [|ch l IH]; intros D F H; [exact I|]. inversion F as [|? ? O F']; subst. cbn [can_keep_all].
  destruct ch as [a x|a k f v|a p k|c]; cbn [can_keepb] in H; try (apply andb_true_iff in H as (H1 & H2); split; [split; [exact (can_dob_ok D _ H1)|exact I]|now apply IH]).
  destruct O as (dst & src & flags & ->). unfold call79 in H at 1. rewrite !andb_true_iff, orb_true_iff in H. destruct H as ((A & B) & H). rewrite !Nat.eqb_eq in *. subst dst.
  split; [|now apply IH]. split; [now apply any96|]. exists (mk_ad "b" (SLocal [])), []. split; reflexivity.
Qed.
Lemma vacant96 : vacant w96 s_classes ["site"]%string U94.
Proof.
  split.
  - intros ad I. destruct I as [<-|[<-|[<-|[]]]]; (split; [reflexivity|]; split; [reflexivity|]); cbn [ad_store mk_ad]; [|reflexivity|]; split; reflexivity.
  - constructor; [intros []|constructor].
  - intros t [<-|[]]. reflexivity.
  - apply Forall_forall. repeat constructor.
  - intros x c t Ix C IT. assert (Q : forall e, In e s_classes -> forall t, In t (map fst (c_children (snd e))) -> plain t = true).
    { intros e Ie t' I'. repeat (destruct Ie as [<-|Ie]; [cbn in I'; repeat (destruct I' as [<-|I']; [reflexivity|]); destruct I'|]). destruct Ie. }
    apply dget_Some_In in C. exact (Q _ C t IT).
Qed.
Example C96_example :
  vacant w96 s_classes ["site"]%string U94 /\ realm 20 s_classes ["site"]%string U94 /\ can_keep_all s_classes U94 (w_ads w96) (fun _ => []) l96 /\
  map (fun a => map (fun x => snd (row_key s_classes x)) (rows_kept s_classes (w_ads w96) l96 a)) (seq 0 3) =
    [["nyc"; "sfo"; "r2"; "r2__eth0"]; ["nyc"; "r1"; "r1__eth0"; "sfo"; "r2"; "r2__eth0"; "r1__eth1"; "lon"]; ["nyc"; "sfo"; "r2"; "r2__eth0"]]%string /\
  dkeys (w_redis (end96 l96)) = ["diffsync:old:site:nyc"; "diffsync:lab:site:nyc"; "diffsync:lab:site:sfo"; "diffsync:lab:device:r2"; "diffsync:lab:interface:r2__eth0"]%string /\
  option_map o_kids (dget (w_redis (end96 l96)) "diffsync:lab:site:nyc") = Some [("devices", ["r2"])]%string /\
  view94 (end96 l96) 1 = [Some [("role", VStr "edge"); ("serial", VNone)]; Some [("mtu", VInt 1500)]; Some [("role", VStr "leaf"); ("serial", VNone)]; Some [("region", VNone)]]%string.
Proof.
  split; [exact vacant96|]. split; [exact realm94|]. split; [apply can_keepb_ok; [repeat constructor; cbn; eauto|vm_compute; reflexivity]|]. repeat split; vm_compute; reflexivity.
Qed.

(** Without the call of [update] an assignment does not reach the store: the next synchronisation succeeds and the
    destination keeps the old value. *)
Theorem C96_forgotten_refuted : exists fuel cs tops U w l a k f v c w1 w2,
  vacant w cs tops U /\ realm fuel cs tops U /\ 2 <= fuel /\ can_keep_all cs U (w_ads w) (fun _ => []) (l ++ [Assign a k f v] ++ [Sync c]) /\ takes_all c /\ sy_src c = a /\
  keep_changes fuel l w = (w1, Ok tt) /\ (assign_to a k f v ;;; keep_changes fuel [Sync c]) w1 = (w2, Ok tt) /\
  exists r o v', lookup w2 (sy_dst c) (fst k) (snd k) = Some r /\ nth_error (w_heap w2) r = Some o /\ dget (o_vals o) f = Some v' /\ py_eq v v' = false.
Proof.
  exists 20, s_classes, ["site"]%string, U94, w96, fill94, 0, ("device", "r2")%string, "role"%string, (VStr "leaf"), (call79 1 0 0), (end96 fill94),
    (fst ((assign_to 0 ("device", "r2")%string "role" (VStr "leaf") ;;; keep_changes 20 [Sync (call79 1 0 0)]) (end96 fill94))).
  split; [exact vacant96|]. split; [exact realm94|]. split; [lia|]. split; [apply can_keepb_ok; [repeat constructor; cbn; eauto|vm_compute; reflexivity]|]. split; [split; reflexivity|]. split; [reflexivity|].
  split; [apply end96_ok; vm_compute; reflexivity|].
  assert (E : snd ((assign_to 0 ("device", "r2")%string "role" (VStr "leaf") ;;; keep_changes 20 [Sync (call79 1 0 0)]) (end96 fill94)) = Ok tt) by (vm_compute; reflexivity).
  split; [revert E; generalize ((assign_to 0 ("device", "r2")%string "role" (VStr "leaf") ;;; keep_changes 20 [Sync (call79 1 0 0)]) (end96 fill94)); intros [x r]; cbn [fst snd]; now intros ->|].
  do 3 eexists. split; [vm_compute; reflexivity|]. split; [vm_compute; reflexivity|]. split; vm_compute; reflexivity.
Qed.
Print Assumptions C96_forgotten_refuted.
