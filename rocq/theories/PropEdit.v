(** * PropEdit: adapters that are edited between synchronisations (C94).

    [change], [do_changes], [rows_after], [realm] and [can_do_all] are defined in EditSpec.v, the conditions on records
    and [has_data] in RowSpec.v, [holds_copy] in CopySpec.v.  [rows_after] only looks at records and changes. *)
From Verif Require Import RowSample PropAgree PropRow PropFleet PropPool EditEnd.

(** C94.  Several adapters start empty.  Objects are added to them, attributes of stored objects are assigned, objects
    are removed with everything below them, and the adapters are synchronised from each other with any flags, all of this
    in any order and any number of times.  No step fails, and at the end each adapter has exactly the data of the
    records that the changes, applied to plain lists of records, lead to. *)
Theorem C94_run : forall fuel cs tops U w l,
  w_ok w -> (forall ad, In ad (w_ads w) -> ad_store ad = SLocal [] /\ ad_classes ad = cs /\ ad_top ad = tops) ->
  realm fuel cs tops U -> 2 <= fuel -> can_do_all cs U (w_ads w) (fun _ => []) l ->
  exists w', do_changes fuel l w = (w', Ok tt) /\ forall a, a < length (w_ads w) -> has_data w' a cs (rows_after cs l a).
Proof.
  intros fuel cs tops U w l OK ES RL F2 CD.
  assert (AC : forall a ad, nth_error (w_ads w) a = Some ad -> ad_classes ad = cs /\ ad_top ad = tops) by (intros a ad A; apply ES; now apply nth_error_In in A).
  pose proof (empty_poised cs tops U (w_ads w) w OK eq_refl (fun ad I => proj1 (ES ad I))) as P0.
  destruct (changes_poised fuel cs tops U (w_ads w) RL F2 AC l _ w P0 CD) as (w' & E & P). exists w'. split; [exact E|].
  intros a LA. exact (poised_data cs tops U (w_ads w) _ w' a P LA).
Qed.
Print Assumptions C94_run.

Lemma can_do_app cs U ads l : forall D m, can_do_all cs U ads D (l ++ m) <-> can_do_all cs U ads D l /\ can_do_all cs U ads (fold_left (change_rows cs) l D) m.
Proof.
  induction l as [|ch l IH]; intros D m; [cbn; tauto|]. cbn [app can_do_all fold_left]. rewrite IH. tauto.
Qed.
Definition takes_all (c : sync_call) : Prop := N.testbit (sy_flags c) 1 = false /\ N.testbit (sy_flags c) 2 = false.
Lemma rows_sync cs l c : takes_all c -> sy_src c <> sy_dst c ->
  rows_after cs (l ++ [Sync c]) (sy_dst c) = rows_after cs l (sy_src c) /\ rows_after cs (l ++ [Sync c]) (sy_src c) = rows_after cs l (sy_src c).
Proof.
  intros (B1 & B2) NE. unfold rows_after. rewrite fold_left_app. cbn [fold_left change_rows]. unfold pool_call. rewrite Nat.eqb_refl. apply Nat.eqb_neq in NE. rewrite NE. split; [now apply pool_plain|reflexivity].
Qed.

(** Whatever was done before, after a synchronisation without flags that skip objects the two adapters hold the same,
    though both may have been edited since they last did. *)
Theorem C94_agree : forall fuel cs tops U w l c,
  w_ok w -> (forall ad, In ad (w_ads w) -> ad_store ad = SLocal [] /\ ad_classes ad = cs /\ ad_top ad = tops) ->
  realm fuel cs tops U -> 2 <= fuel -> can_do_all cs U (w_ads w) (fun _ => []) (l ++ [Sync c]) -> takes_all c ->
  exists w', do_changes fuel (l ++ [Sync c]) w = (w', Ok tt) /\ holds_copy w' (sy_src c) w' (sy_dst c) /\ holds_copy w' (sy_dst c) w' (sy_src c).
Proof.
  intros fuel cs tops U w l c OK ES RL F2 CD TA.
  assert (AC : forall a ad, nth_error (w_ads w) a = Some ad -> ad_classes ad = cs /\ ad_top ad = tops) by (intros a ad A; apply ES; now apply nth_error_In in A).
  pose proof (empty_poised cs tops U (w_ads w) w OK eq_refl (fun ad I => proj1 (ES ad I))) as P0.
  destruct (changes_poised fuel cs tops U (w_ads w) RL F2 AC _ _ w P0 CD) as (w' & E & P). exists w'. split; [exact E|].
  apply can_do_app in CD as (_ & ((NE & LS & (da & DA & _) & _) & _)). assert (LD : sy_dst c < length (w_ads w)) by (apply nth_error_Some; congruence).
  destruct (rows_sync cs l c TA NE) as (R1 & R2). split.
  - exact (poised_copy cs tops U (w_ads w) _ w' _ _ P LS LD (eq_trans R2 (eq_sym R1))).
  - exact (poised_copy cs tops U (w_ads w) _ w' _ _ P LD LS (eq_trans R1 (eq_sym R2))).
Qed.
Print Assumptions C94_agree.

(** An attribute that is assigned in an adapter arrives in the one that is synchronised from it next. *)
Theorem C94_arrives : forall fuel cs tops U w l k f v c,
  w_ok w -> (forall ad, In ad (w_ads w) -> ad_store ad = SLocal [] /\ ad_classes ad = cs /\ ad_top ad = tops) ->
  realm fuel cs tops U -> 2 <= fuel -> can_do_all cs U (w_ads w) (fun _ => []) (l ++ [Assign (sy_src c) k f v] ++ [Sync c]) -> takes_all c ->
  exists w' r o v', do_changes fuel (l ++ [Assign (sy_src c) k f v] ++ [Sync c]) w = (w', Ok tt) /\
    lookup w' (sy_dst c) (fst k) (snd k) = Some r /\ nth_error (w_heap w') r = Some o /\ dget (o_vals o) f = Some v' /\ py_eq v v' = true.
Proof.
  intros fuel cs tops U w l k f v c OK ES RL F2 CD TA. destruct (C94_run fuel cs tops U w _ OK ES RL F2 CD) as (w' & E & H).
  assert (AC : forall a ad, nth_error (w_ads w) a = Some ad -> ad_classes ad = cs /\ ad_top ad = tops) by (intros a ad A; apply ES; now apply nth_error_In in A).
  pose proof (empty_poised cs tops U (w_ads w) w OK eq_refl (fun ad I => proj1 (ES ad I))) as P0.
  pose proof CD as CD0. apply can_do_app in CD0 as (CD1 & _). destruct (changes_poised fuel cs tops U (w_ads w) RL F2 AC _ _ w P0 CD1) as (w1 & E1 & P1). clear CD1.
  apply can_do_app in CD as (_ & CD). cbn [can_do_all can_do app] in CD. destruct CD as ((LA & VV & x & c0 & Ix & Kx & C0 & AT) & (NE & LS & (da & DA & _) & _) & _).
  assert (LD : sy_dst c < length (w_ads w)) by (apply nth_error_Some; congruence). specialize (H _ LD). rewrite app_assoc in H. rewrite (proj1 (rows_sync cs _ c TA NE)) in H.
  unfold rows_after in H. rewrite fold_left_app in H. cbn [fold_left change_rows] in H. set (D := fold_left (change_rows cs) l (fun _ => [])) in *. unfold put in H. rewrite Nat.eqb_refl in H. destruct H as (H & _).
  rewrite set_row_eq in H. assert (AK : at_key (row_key cs x) k = true) by now apply at_key_ok.
  destruct (H (new_row cs k f v x) c0) as (r & o & L & N & _ & V & _); [now apply in_map|now rewrite nr_type|].
  destruct (V f) as (v0 & v1 & E0 & E2 & Q); [apply in_app_iff; now right|]. rewrite (nr_new cs k f v x c0 Kx) in E0. injection E0 as <-.
  assert (KN : row_key cs (new_row cs k f v x) = k) by (rewrite (nr_key fuel cs tops U RL (D (sy_src c)) k f v x c0 (pd_of _ _ _ _ _ _ P1 _ LA) Kx C0 AT x Ix); exact Kx).
  rewrite KN in L. exists w', r, o, v1. auto.
Qed.
Print Assumptions C94_arrives.

(** An object that is removed from an adapter, and everything below it, is gone from the one that is synchronised from
    it next, and nothing else is. *)
Theorem C94_vanishes : forall fuel cs tops U w l p k c,
  w_ok w -> (forall ad, In ad (w_ads w) -> ad_store ad = SLocal [] /\ ad_classes ad = cs /\ ad_top ad = tops) ->
  realm fuel cs tops U -> 2 <= fuel -> can_do_all cs U (w_ads w) (fun _ => []) (l ++ [Drop (sy_src c) p k] ++ [Sync c]) -> takes_all c ->
  exists w1 w', do_changes fuel l w = (w1, Ok tt) /\ do_changes fuel (l ++ [Drop (sy_src c) p k] ++ [Sync c]) w = (w', Ok tt) /\
    forall q, lookup w' (sy_dst c) (fst q) (snd q) <> None <-> lookup w1 (sy_src c) (fst q) (snd q) <> None /\ ~ reaches w1 (sy_src c) k q.
Proof.
  intros fuel cs tops U w l p k c OK ES RL F2 CD TA.
  assert (AC : forall a ad, nth_error (w_ads w) a = Some ad -> ad_classes ad = cs /\ ad_top ad = tops) by (intros a ad A; apply ES; now apply nth_error_In in A).
  pose proof (empty_poised cs tops U (w_ads w) w OK eq_refl (fun ad I => proj1 (ES ad I))) as P0.
  pose proof CD as CD0. apply can_do_app in CD0 as (CD1 & CD2). destruct (changes_poised fuel cs tops U (w_ads w) RL F2 AC _ _ w P0 CD1) as (w1 & E1 & P1).
  destruct (changes_poised fuel cs tops U (w_ads w) RL F2 AC _ _ w P0 CD) as (w' & E & P). exists w1, w'. split; [exact E1|]. split; [exact E|].
  cbn [can_do_all can_do app] in CD2. destruct CD2 as ((LA & x & Ix & Kx & Px) & (NE & LS & (da & DA & _) & _) & _). assert (LD : sy_dst c < length (w_ads w)) by (apply nth_error_Some; congruence).
  pose proof (pd_data _ _ _ _ _ _ P _ LD) as CA. assert (RW : fold_left (change_rows cs) (l ++ [Drop (sy_src c) p k] ++ [Sync c]) (fun _ => []) (sy_dst c) = cut_rows cs [k] (fold_left (change_rows cs) l (fun _ => []) (sy_src c))).
  { change (rows_after cs (l ++ [Drop (sy_src c) p k] ++ [Sync c]) (sy_dst c) = cut_rows cs [k] (rows_after cs l (sy_src c))). rewrite app_assoc, (proj1 (rows_sync cs _ c TA NE)). unfold rows_after. rewrite fold_left_app. cbn [fold_left change_rows]. unfold put. now rewrite Nat.eqb_refl. }
  rewrite RW in CA. clear RW. set (D := fold_left (change_rows cs) l (fun _ => [])) in *. pose proof (pd_data _ _ _ _ _ _ P1 _ LA) as CA1. pose proof (pd_set _ _ _ _ _ _ P1 _ LA) as DS.
  assert (CU : forall y, In y (cut_rows cs [k] (D (sy_src c))) <-> In y (D (sy_src c)) /\ ~ under cs (D (sy_src c)) k (row_key cs y)).
  { apply (cut_ok cs tops (D (sy_src c)) k DS (D (sy_src c)) []); [reflexivity|intros q [<-|[]]; constructor|now left|intros z []]. }
  assert (UR : forall q, reaches w1 (sy_src c) k q <-> under cs (D (sy_src c)) k q) by (intros q; apply (ca_reaches cs tops w1 (sy_src c) _ CA1 DS)).
  intros q. rewrite UR. split.
  - intros N. destruct (ca_only _ _ _ _ CA q N) as (y & Iy & <-). apply CU in Iy as (Iy & NU). split; [|exact NU]. destruct (ca_rows _ _ _ _ CA1 y Iy) as (r & o & -> & _). discriminate.
  - intros (N & NU). destruct (ca_only _ _ _ _ CA1 q N) as (y & Iy & <-). destruct (ca_rows _ _ _ _ CA y) as (r & o & -> & _); [apply CU; auto|discriminate].
Qed.
Print Assumptions C94_vanishes.

(** An adapter is filled and copied; an attribute is assigned in the first, an interface removed from the second, a site
    added to it; the third collects from both; then a device is removed from the first, and the second is synchronised from it. *)
Definition U94 : list row := concat data77.
Definition fill94 : list change := map (Insert 0) rows_a.
Definition l94 : list change :=
  fill94 ++
  [Sync (call79 1 0 0); Assign 0 ("device", "r2")%string "role" (VStr "leaf"); Drop 1 (Some ("device", "r1")%string) ("interface", "r1__eth1")%string; Insert 1 (site "lon" []);
   Sync (call79 2 0 4); Sync (call79 2 1 4); Drop 0 (Some ("site", "nyc")%string) ("device", "r1")%string; Sync (call79 1 0 0)].
Definition end94 (l : list change) : world := fst (do_changes 20 l w77).
Definition view94 (w : world) (a : aid) : list (option (dict val)) :=
  map (fun k => match lookup w a (fst k) (snd k) with
                | Some r => match nth_error (w_heap w) r with Some o => Some (get_attrs o) | None => None end
                | None => None
                end) [("device", "r1"); ("interface", "r1__eth1"); ("device", "r2"); ("site", "lon")]%string.
Lemma realm94 : realm 20 s_classes ["site"]%string U94.
Proof.
  destruct crowd79 as [_ _ TN EA MA PV SH NF]. split; [| |exact MA|exact PV|exact SH|exact NF|exact TN].
  - intros x I. apply in_concat in I as (rows & IR & I). exact (da_class _ _ _ (EA rows IR) x I).
  - intros x I. apply in_concat in I as (rows & IR & I). apply in_split in I as (l & m & E). pose proof (da_parent _ _ _ (EA rows IR) l x m E) as P. destruct (r_parent x) as [p|]; [|exact P].
    destruct P as (N & y & c & _ & <- & D & Ch). split; [exact N|]. exists c. auto.
Qed.
(** checks of the conditions *)
Definition rowb (x y : row) : bool :=
  String.eqb (r_type x) (r_type y) && match r_parent x, r_parent y with Some p, Some q => at_key p q | None, None => true | _, _ => false end &&
  Nat.eqb (length (r_kw x)) (length (r_kw y)) && forallb (fun z => String.eqb (fst (fst z)) (fst (snd z)) && match snd (fst z), snd (snd z) with VStr a, VStr b => String.eqb a b | VInt a, VInt b => Z.eqb a b | _, _ => false end)
    (List.combine (r_kw x) (r_kw y)).
Lemma rowb_ok x y : rowb x y = true -> x = y.
Proof.
  destruct x as [t kw p], y as [t' kw' p']. unfold rowb. cbn [r_type r_kw r_parent]. rewrite !andb_true_iff. intros (((T & P) & L) & F). apply String.eqb_eq in T. apply Nat.eqb_eq in L. subst t'.
  assert (EP : p = p') by (destruct p, p'; try discriminate; [apply at_key_ok in P; congruence|reflexivity]). subst p'. f_equal.
  revert kw' L F. induction kw as [|[a v] kw IH]; intros [|[a' v'] kw'] L F; try discriminate; [reflexivity|]. cbn [List.combine forallb fst snd] in F. rewrite !andb_true_iff in F. destruct F as ((A & B) & F). apply String.eqb_eq in A. subst a'.
  assert (v = v') by (destruct v, v'; try discriminate; [apply Z.eqb_eq in B|apply String.eqb_eq in B]; congruence). subst v'. f_equal. apply IH; [now injection L|exact F].
Qed.
Definition can_dob (D : aid -> list row) (ch : change) : bool :=
  match ch with
  | Insert a x => Nat.ltb a 3 && existsb (rowb x) U94 && negb (existsb (fun y => at_key (row_key s_classes y) (row_key s_classes x)) (D a)) &&
      match r_parent x with Some p => existsb (fun y => at_key (row_key s_classes y) p) (D a) | None => true end
  | Assign a k f v => Nat.ltb a 3 && py_eq v v && existsb (fun x => at_key (row_key s_classes x) k && match dget s_classes (r_type x) with Some c => smem f (c_attributes c) | None => false end) (D a)
  | Drop a p k => Nat.ltb a 3 && existsb (fun x => at_key (row_key s_classes x) k && RowSample.sameb (r_parent x) p) (D a)
  | Sync _ => false
  end.
Lemma can_dob_ok D ch : can_dob D ch = true -> can_do s_classes U94 (w_ads w77) D ch.
Proof.
  destruct ch as [a x|a k f v|a p k|c]; cbn [can_dob can_do]; rewrite ?andb_true_iff, ?existsb_exists; [| | |discriminate].
  - intros (((A & (y & Iy & B)) & C) & P). apply Nat.ltb_lt in A. apply rowb_ok in B. subst y. split; [exact A|]. split; [exact Iy|]. split.
    + intros y J E. apply negb_true_iff in C. assert (T : existsb (fun y => at_key (row_key s_classes y) (row_key s_classes x)) (D a) = true) by (apply existsb_exists; exists y; split; [exact J|now apply at_key_ok]). congruence.
    + intros p E. rewrite E in P. apply existsb_exists in P as (y & J & Q). exists y. split; [exact J|]. now apply at_key_ok.
  - intros ((A & B) & (x & J & C)). apply Nat.ltb_lt in A. apply andb_true_iff in C as (C1 & C2). apply at_key_ok in C1. destruct (dget s_classes (r_type x)) as [c|] eqn:E; [|discriminate].
    split; [exact A|]. split; [exact B|]. exists x, c. split; [exact J|]. split; [exact C1|]. split; [exact E|]. now apply smem_In.
  - intros (A & (x & J & C)). apply Nat.ltb_lt in A. apply andb_true_iff in C as (C1 & C2). apply at_key_ok in C1. apply RowSample.sameb_ok in C2. split; [exact A|]. eauto.
Qed.
Fixpoint can_do_allb (D : aid -> list row) (l : list change) : bool :=
  match l with
  | [] => true
  | Sync (mkCall dst src _ _ _ _) as ch :: l' => Nat.ltb dst 3 && Nat.ltb src 3 && negb (Nat.eqb src dst) && can_do_allb (change_rows s_classes D ch) l'
  | ch :: l' => can_dob D ch && can_do_allb (change_rows s_classes D ch) l'
  end.
Definition ours (ch : change) : Prop := match ch with Sync c => exists dst src flags, c = call79 dst src flags | _ => True end.
Lemma can_do_allb_ok l : forall D, Forall ours l -> can_do_allb D l = true -> can_do_all s_classes U94 (w_ads w77) D l.
Proof.
  induction l as [|ch l IH]; intros D F H; [exact I|]. inversion F as [|? ? O F']; subst. cbn [can_do_all].
  destruct ch as [a x|a k f v|a p k|c]; cbn [can_do_allb] in H; try (apply andb_true_iff in H as (H1 & H2); split; [now apply can_dob_ok|now apply IH]).
  destruct O as (dst & src & flags & ->). unfold call79 in H at 1. rewrite !andb_true_iff in H. destruct H as (((A & B) & C) & H). apply Nat.ltb_lt in A, B. apply negb_true_iff, Nat.eqb_neq in C.
  split; [now apply any79|now apply IH].
Qed.
Lemma ours94 : Forall ours l94.
Proof. repeat constructor; cbn; eauto. Qed.
Lemma ads94 : forall ad, In ad (w_ads w77) -> ad_store ad = SLocal [] /\ ad_classes ad = s_classes /\ ad_top ad = ["site"]%string.
Proof. intros ad I. repeat (destruct I as [<-|I]; [repeat split|]). destruct I. Qed.
Example C94_example :
  w_ok w77 /\ (forall ad, In ad (w_ads w77) -> ad_store ad = SLocal [] /\ ad_classes ad = s_classes /\ ad_top ad = ["site"]%string) /\
  realm 20 s_classes ["site"]%string U94 /\ can_do_all s_classes U94 (w_ads w77) (fun _ => []) l94 /\
  map (fun a => map (fun x => snd (row_key s_classes x)) (rows_after s_classes l94 a)) (seq 0 3) =
    [["nyc"; "sfo"; "r2"; "r2__eth0"]; ["nyc"; "sfo"; "r2"; "r2__eth0"]; ["nyc"; "r1"; "r1__eth0"; "sfo"; "r2"; "r2__eth0"; "lon"; "r1__eth1"]]%string /\
  map (view94 (end94 l94)) (seq 0 3) =
    [[None; None; Some [("role", VStr "leaf"); ("serial", VNone)]; None]; [None; None; Some [("role", VStr "leaf"); ("serial", VNone)]; None];
     [Some [("role", VStr "edge"); ("serial", VNone)]; Some [("mtu", VInt 1500)]; Some [("role", VStr "core"); ("serial", VNone)]; Some [("region", VNone)]]]%string.
Proof.
  split; [apply w_okb_ok; reflexivity|]. split; [exact ads94|]. split; [exact realm94|]. split; [apply can_do_allb_ok; [exact ours94|vm_compute; reflexivity]|]. split; vm_compute; reflexivity.
Qed.

(** Removing an object without taking it off its parent's children is not enough: the parent still lists it, so the
    next synchronisation from that adapter fails. *)
Theorem C94_orphan_refuted : exists fuel cs tops U w l a k x c w1,
  w_ok w /\ (forall ad, In ad (w_ads w) -> ad_store ad = SLocal [] /\ ad_classes ad = cs /\ ad_top ad = tops) /\
  realm fuel cs tops U /\ 2 <= fuel /\ can_do_all cs U (w_ads w) (fun _ => []) l /\ any_call (w_ads w) c /\
  In x (rows_after cs l a) /\ row_key cs x = k /\ sy_src c = a /\
  do_changes fuel (l ++ [Drop a None k]) w = (w1, Ok tt) /\ lookup w1 a (fst k) (snd k) = None /\
  snd (do_change fuel (Sync c) w1) = Err ObjectNotFound.
Proof.
  exists 20, s_classes, ["site"]%string, U94, w77, fill94, 0, ("interface", "r1__eth1")%string, (nth 3 rows_a (site "" [])), (call79 1 0 0), (end94 (fill94 ++ [Drop 0 None ("interface", "r1__eth1")%string])).
  split; [apply w_okb_ok; reflexivity|]. split; [exact ads94|]. split; [exact realm94|]. split; [lia|].
  split; [apply can_do_allb_ok; [repeat constructor|vm_compute; reflexivity]|]. split; [apply any79; lia|]. split; [vm_compute; tauto|]. split; [reflexivity|]. split; [reflexivity|].
  split; [|split; vm_compute; reflexivity]. unfold end94. assert (E : snd (do_changes 20 (fill94 ++ [Drop 0 None ("interface", "r1__eth1")%string]) w77) = Ok tt) by (vm_compute; reflexivity).
  revert E. generalize (do_changes 20 (fill94 ++ [Drop 0 None ("interface", "r1__eth1")%string]) w77). intros [v r]. cbn [fst snd]. now intros ->.
Qed.
Print Assumptions C94_orphan_refuted.
(** Assigning an identifier does not rename the object: the store keeps it under the old unique id. *)
Theorem C94_rename_refuted : exists fuel cs tops U w l a k x f v w1,
  w_ok w /\ (forall ad, In ad (w_ads w) -> ad_store ad = SLocal [] /\ ad_classes ad = cs /\ ad_top ad = tops) /\
  realm fuel cs tops U /\ 2 <= fuel /\ can_do_all cs U (w_ads w) (fun _ => []) l /\ a < length (w_ads w) /\
  In x (rows_after cs l a) /\ row_key cs x = k /\ py_eq v v = true /\
  do_changes fuel (l ++ [Assign a k f v]) w = (w1, Ok tt) /\ ~ has_data w1 a cs (rows_after cs (l ++ [Assign a k f v]) a).
Proof.
  exists 20, s_classes, ["site"]%string, U94, w77, fill94, 0, ("site", "sfo")%string, (nth 4 rows_a (site "" [])), "name"%string, (VStr "oak"), (end94 (fill94 ++ [Assign 0 ("site", "sfo")%string "name" (VStr "oak")])).
  split; [apply w_okb_ok; reflexivity|]. split; [exact ads94|]. split; [exact realm94|]. split; [lia|].
  split; [apply can_do_allb_ok; [repeat constructor|vm_compute; reflexivity]|]. split; [cbn; lia|]. split; [vm_compute; tauto|]. split; [reflexivity|]. split; [reflexivity|]. split.
  - unfold end94. assert (E : snd (do_changes 20 (fill94 ++ [Assign 0 ("site", "sfo")%string "name" (VStr "oak")]) w77) = Ok tt) by (vm_compute; reflexivity).
    revert E. generalize (do_changes 20 (fill94 ++ [Assign 0 ("site", "sfo")%string "name" (VStr "oak")]) w77). intros [v r]. cbn [fst snd]. now intros ->.
  - set (w1 := end94 _). intros (_ & H). destruct (H ("site", "sfo")%string) as (x & I & K); [vm_compute; discriminate|]. vm_compute in I. repeat (destruct I as [<-|I]; [vm_compute in K; discriminate|]). exact I.
Qed.
Print Assumptions C94_rename_refuted.
