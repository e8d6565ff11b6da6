(** * PropTry: adapters that are edited between synchronisations that may fail (C95).

    [move], [do_moves], [partly], [may_be_after] and [can_move_all] are defined in TrySpec.v, [change] and [realm] in EditSpec.v,
    [hooks_honest] and [deletes_succeed] in FailSpec.v, [has_data] in RowSpec.v, [holds_copy] in CopySpec.v. *)
From Verif Require Import RowSample PropAgree PropRow PropFleet PropPool PropEdit PropRetry TryEnd.

(** C95.  Several adapters start empty.  They are edited, synchronised, and synchronised with hooks whose creations
    and updates may fail in any way, in any order and any number of times.  Whatever breaks off a synchronisation, the
    program carries on: every edit works, and each adapter has at any time exactly the data of a consistent list
    of records.  After a failed synchronisation each record of the destination is one of the source's or one of
    those it had, and none that both had is missing. *)
Theorem C95_run : forall fuel cs tops U w l,
  w_ok w -> (forall ad, In ad (w_ads w) -> ad_store ad = SLocal [] /\ ad_classes ad = cs /\ ad_top ad = tops) ->
  realm fuel cs tops U -> unmarked cs -> 2 <= fuel -> can_move_all cs tops U (w_ads w) (fun _ => []) l ->
  exists w' D, do_moves fuel l w = (w', Ok tt) /\ may_be_after cs tops (fun _ => []) l D /\
    forall a, a < length (w_ads w) -> dataset cs tops (D a) /\ has_data w' a cs (D a).
Proof.
  intros fuel cs tops U w l OK ES RL UM F2 CM.
  assert (AC : forall a ad, nth_error (w_ads w) a = Some ad -> ad_classes ad = cs /\ ad_top ad = tops) by (intros a ad A; apply ES; now apply nth_error_In in A).
  pose proof (empty_poised cs tops U (w_ads w) w OK eq_refl (fun ad I => proj1 (ES ad I))) as P0.
  destruct (moves_poised fuel cs tops U (w_ads w) RL F2 UM AC l _ w P0 CM) as (w' & D & E & M & P). exists w', D. split; [exact E|]. split; [exact M|].
  intros a LA. split; [exact (pd_set _ _ _ _ _ _ P a LA)|exact (poised_data cs tops U (w_ads w) _ w' a P LA)].
Qed.
Print Assumptions C95_run.

(** Then one synchronisation whose hooks succeed, without flags that skip objects, succeeds and makes its two adapters
    agree: both hold the data that the source had. *)
Theorem C95_heals : forall fuel cs tops U w l c,
  w_ok w -> (forall ad, In ad (w_ads w) -> ad_store ad = SLocal [] /\ ad_classes ad = cs /\ ad_top ad = tops) ->
  realm fuel cs tops U -> unmarked cs -> 2 <= fuel -> can_move_all cs tops U (w_ads w) (fun _ => []) l -> any_call (w_ads w) c -> takes_all c ->
  exists w1 w2 D, do_moves fuel l w = (w1, Ok tt) /\ may_be_after cs tops (fun _ => []) l D /\ do_change fuel (Sync c) w1 = (w2, Ok tt) /\
    has_data w1 (sy_src c) cs (D (sy_src c)) /\ has_data w2 (sy_src c) cs (D (sy_src c)) /\ has_data w2 (sy_dst c) cs (D (sy_src c)) /\
    holds_copy w2 (sy_src c) w2 (sy_dst c) /\ holds_copy w2 (sy_dst c) w2 (sy_src c).
Proof.
  intros fuel cs tops U w l c OK ES RL UM F2 CM AN (B1 & B2).
  assert (AC : forall a ad, nth_error (w_ads w) a = Some ad -> ad_classes ad = cs /\ ad_top ad = tops) by (intros a ad A; apply ES; now apply nth_error_In in A).
  pose proof (empty_poised cs tops U (w_ads w) w OK eq_refl (fun ad I => proj1 (ES ad I))) as P0.
  destruct (moves_poised fuel cs tops U (w_ads w) RL F2 UM AC l _ w P0 CM) as (w1 & D & E & M & P).
  destruct (change_poised fuel cs tops U (w_ads w) RL F2 AC D w1 (Sync c) P AN) as (w2 & E2 & P2). exists w1, w2, D. split; [exact E|]. split; [exact M|]. split; [exact E2|].
  destruct AN as (NE & LS & (da & DA & _) & _). assert (LD : sy_dst c < length (w_ads w)) by (apply nth_error_Some; congruence).
  assert (RD : change_rows cs D (Sync c) (sy_dst c) = D (sy_src c)) by (cbn [change_rows]; unfold pool_call; rewrite Nat.eqb_refl; now apply pool_plain).
  assert (RS : change_rows cs D (Sync c) (sy_src c) = D (sy_src c)) by (cbn [change_rows]; unfold pool_call; apply Nat.eqb_neq in NE; now rewrite NE).
  split; [exact (poised_data cs tops U (w_ads w) _ w1 _ P LS)|]. split; [rewrite <- RS at 1; exact (poised_data cs tops U (w_ads w) _ w2 _ P2 LS)|]. split; [rewrite <- RD; exact (poised_data cs tops U (w_ads w) _ w2 _ P2 LD)|].
  split; [exact (poised_copy cs tops U (w_ads w) _ w2 _ _ P2 LS LD (eq_trans RS (eq_sym RD)))|exact (poised_copy cs tops U (w_ads w) _ w2 _ _ P2 LD LS (eq_trans RD (eq_sym RS)))].
Qed.
Print Assumptions C95_heals.

(** No failure reaches an adapter that is never a destination: it has the records that the edits alone give it. *)
Definition never_dst (b : aid) (mv : move) : Prop := match mv with Do (Sync c) => sy_dst c <> b | Do _ => True | Try c => sy_dst c <> b end.
Definition edits_of (l : list move) : list change :=
  flat_map (fun mv => match mv with Do (Sync _) => [] | Do ch => [ch] | Try _ => [] end) l.
Theorem C95_others : forall cs tops l b D D', Forall (never_dst b) l -> may_be_after cs tops D l D' ->
  D' b = fold_left (change_rows cs) (edits_of l) D b.
Proof.
  intros cs tops l b D D' F. assert (X : forall m D1 D2, D1 b = D2 b -> Forall (fun ch => match ch with Sync _ => False | _ => True end) m -> fold_left (change_rows cs) m D1 b = fold_left (change_rows cs) m D2 b).
  { induction m as [|ch m IH]; intros D1 D2 E FM; [exact E|]. inversion FM as [|? ? N FM']; subst. cbn [fold_left]. apply IH; [|exact FM'].
    destruct ch as [a x|a k f v|a p k|c]; [| | |contradiction]; cbn [change_rows]; unfold put; destruct (Nat.eqb_spec b a) as [<-|_]; congruence. }
  revert D D'. induction F as [|mv l NT F IH]; intros D D' M; [cbn in M; now subst|]. destruct M as (D1 & M1 & M2). rewrite (IH D1 D' M2).
  assert (FE : Forall (fun ch => match ch with Sync _ => False | _ => True end) (edits_of l)).
  { apply Forall_forall. intros ch I. apply in_flat_map in I as (m & _ & I). destruct m as [[]|]; cbn in I; try tauto; destruct I as [<-|[]]; exact Logic.I. }
  destruct mv as [[a x|a k f v|a p k|c]|c]; cbn [may_become never_dst] in *; unfold edits_of; cbn [flat_map app].
  - subst D1. reflexivity.
  - subst D1. reflexivity.
  - subst D1. reflexivity.
  - subst D1. apply X; [|exact FE]. cbn [change_rows]. unfold pool_call. destruct (Nat.eqb_spec b (sy_dst c)); congruence.
  - destruct M1 as (rest & _ & _ & ->). apply X; [|exact FE]. unfold put. destruct (Nat.eqb_spec b (sy_dst c)); congruence.
Qed.
Print Assumptions C95_others.

(** A synchronisation in which the creation of sfo fails; a site is added to the destination and an attribute is assigned in the source;
    a synchronisation in which the update of r1 breaks off everything; at the end one that succeeds. *)
Definition flaky95 (flags : N) : sync_call := mkCall 1 0 flaky base_class flags false.
Definition l95 : list move :=
  map Do fill94 ++ [Try (flaky95 1); Do (Insert 1 (site "lon" [])); Do (Assign 0 ("device", "r1")%string "role" (VStr "leaf")); Try (flaky95 0)].
Definition end95 (l : list move) : world := fst (do_moves 20 l w77).
Definition view95 (w : world) (a : aid) : list (option (dict val)) :=
  map (fun k => match lookup w a (fst k) (snd k) with
                | Some r => match nth_error (w_heap w) r with Some o => Some (get_attrs o) | None => None end
                | None => None
                end) [("device", "r1"); ("interface", "r1__eth1"); ("site", "sfo"); ("site", "lon")]%string.
Lemma can_move_edits cs tops U ads l : forall D m, can_do_all cs U ads D l -> can_move_all cs tops U ads (fold_left (change_rows cs) l D) m -> can_move_all cs tops U ads D (map Do l ++ m).
Proof.
  induction l as [|ch l IH]; intros D m C H; [exact H|]. destruct C as (C1 & C2). cbn [map app can_move_all]. split; [exact C1|]. cbn [may_become]. intros D' ->. now apply IH.
Qed.
Lemma flaky95_ok flags : try_call (w_ads w77) (flaky95 flags).
Proof.
  split; [discriminate|]. split; [cbn; lia|]. split; [eexists; split; [reflexivity|]|split; [exact flaky_honest|split; [exact flaky_deletes|exact order_default_once]]].
  intros v hc k t c I. cbn [flaky95 sy_hooks] in I. destruct hc as [c0 ids a|r a|r]; cbn [flaky] in I; [|destruct (named_so v r "r1"); destruct I|destruct I].
  destruct (dget ids "name") as [[]|]; try destruct I. destruct (String.eqb s "sfo"); destruct I.
Qed.
Lemma l95_ok : can_move_all s_classes ["site"]%string U94 (w_ads w77) (fun _ => []) l95.
Proof.
  unfold l95. apply can_move_edits; [apply can_do_allb_ok; [repeat constructor|vm_compute; reflexivity]|]. set (D := fold_left _ _ _). cbn [can_move_all].
  split; [apply flaky95_ok|]. intros D1 (rest & PA & _ & ->). split; [|intros D2 ->; split; [|intros D3 _; split; [apply flaky95_ok|auto]]].
  - cbn [can_move can_do]. split; [cbn; lia|]. split; [vm_compute; tauto|]. split; [|discriminate]. unfold put. cbn [flaky95 sy_dst Nat.eqb].
    intros y I E. destruct (pa_from _ _ _ _ _ PA y I) as [J|J]; vm_compute in J; [|destruct J]. revert E. repeat (destruct J as [<-|J]; [vm_compute; discriminate|]). destruct J.
  - cbn [can_move can_do]. split; [cbn; lia|]. split; [reflexivity|]. exists (nth 1 rows_a (site "" [])). eexists. split; [vm_compute; tauto|]. split; [reflexivity|]. split; [vm_compute; reflexivity|]. vm_compute. tauto.
Qed.
Example C95_example :
  w_ok w77 /\ (forall ad, In ad (w_ads w77) -> ad_store ad = SLocal [] /\ ad_classes ad = s_classes /\ ad_top ad = ["site"]%string) /\
  realm 20 s_classes ["site"]%string U94 /\ unmarked s_classes /\ can_move_all s_classes ["site"]%string U94 (w_ads w77) (fun _ => []) l95 /\
  any_call (w_ads w77) (call79 1 0 0) /\ takes_all (call79 1 0 0) /\
  snd (sync_from 20 flaky 1 0 base_class 0 false None (end95 (firstn (length l95 - 1) l95))) = Err ExnValueError /\
  map (view95 (end95 l95)) (seq 0 2) =
    [[Some [("role", VStr "leaf"); ("serial", VNone)]; Some [("mtu", VInt 1500)]; Some [("region", VNone)]; None];
     [Some [("role", VStr "leaf"); ("serial", VNone)]; Some [("mtu", VInt 1500)]; None; Some [("region", VNone)]]]%string /\
  view95 (fst (do_change 20 (Sync (call79 1 0 0)) (end95 l95))) 1 = view95 (end95 l95) 0.
Proof.
  split; [apply w_okb_ok; reflexivity|]. split; [exact ads94|]. split; [exact realm94|]. split; [|split; [exact l95_ok|split; [apply any79; lia|split; [now split|]]]].
  - intros t c E. apply dget_Some_In in E. repeat (destruct E as [E|E]; [injection E as <- <-; reflexivity|]). destruct E.
  - vm_compute. auto.
Qed.

(** Not so if a deletion may fail: here the site, its devices and their interfaces go, and interface eth1, whose deletion
    fails, stays without its device.  No list of records describes that. *)
Definition stubborn : hooks := fun w hc => match hc with
  | HDelete r => if named_so w r "eth1" then mkOut false None [] (HRaise ObjectNotDeleted) else default_outcome
  | _ => default_outcome
  end.
Definition fill95 : list change := map (Insert 1) rows_a.
Theorem C95_delete_refuted : exists (fuel : nat) (cs : dict cls) (tops : list string) (U : list row) (w : world) (l : list move) (c : sync_call),
  w_ok w /\ (forall ad, In ad (w_ads w) -> ad_store ad = SLocal [] /\ ad_classes ad = cs /\ ad_top ad = tops) /\
  realm fuel cs tops U /\ unmarked cs /\ 2 <= fuel /\ can_move_all cs tops U (w_ads w) (fun _ => []) l /\
  sy_src c <> sy_dst c /\ sy_src c < length (w_ads w) /\ (exists da, nth_error (w_ads w) (sy_dst c) = Some da /\ spares_attributes da (sy_hooks c)) /\
  hooks_honest (sy_hooks c) /\ yields_once (dc_order (sy_class c)) /\
  forall w', do_moves fuel (l ++ [Try c]) w = (w', Ok tt) -> lookup w' (sy_dst c) "interface" "r1__eth1" <> None /\ forall rest, dataset cs tops rest -> ~ has_data w' (sy_dst c) cs rest.
Proof.
  exists 20, s_classes, ["site"]%string, U94, w77, (map Do fill95), (mkCall 1 0 stubborn base_class 1 false).
  split; [apply w_okb_ok; reflexivity|]. split; [exact ads94|]. split; [exact realm94|]. split.
  { intros t c E. apply dget_Some_In in E. repeat (destruct E as [E|E]; [injection E as <- <-; reflexivity|]). destruct E. }
  split; [lia|]. split. { rewrite <- (app_nil_r (map Do fill95)). apply can_move_edits; [apply can_do_allb_ok; [repeat constructor|vm_compute; reflexivity]|exact I]. }
  split; [discriminate|]. split; [cbn; lia|]. split.
  { eexists. split; [reflexivity|]. intros v hc k t c J. cbn [sy_hooks] in J. destruct hc as [c0 ids a|r a|r]; cbn [stubborn] in J; try destruct J. destruct (named_so v r "eth1"); destruct J. }
  split. { intros v [c ids a|r a|r]; cbn [sy_hooks stubborn]; try reflexivity. destruct (named_so v r "eth1"); cbn; congruence. }
  split; [exact order_default_once|]. cbn [sy_dst]. intros w' E.
  assert (Q : fst (do_moves 20 (map Do fill95 ++ [Try (mkCall 1 0 stubborn base_class 1 false)]) w77) = w') by (rewrite E; reflexivity). clear E.
  assert (L : forall k, lookup w' 1 (fst k) (snd k) <> None -> k = ("interface", "r1__eth1")%string).
  { assert (ST : option_map ad_store (nth_error (w_ads w') 1) = Some (SLocal [("site", []); ("device", []); ("interface", [("r1__eth1", 3)])]%string)) by (rewrite <- Q; vm_compute; reflexivity).
    clear Q. intros [t u] N. cbn [fst snd] in N. unfold lookup in N. destruct (nth_error (w_ads w') 1) as [ad|]; [|discriminate]. injection ST as ST. rewrite ST in N. unfold bucket in N. cbn [dget] in N.
    destruct (String.eqb_spec t "site") as [->|_]; [exfalso; apply N; reflexivity|]. destruct (String.eqb_spec t "device") as [->|_]; [exfalso; apply N; reflexivity|]. destruct (String.eqb_spec t "interface") as [->|_]; [|exfalso; apply N; reflexivity].
    cbn [dget] in N. destruct (String.eqb_spec u "r1__eth1") as [EU|_]; [now rewrite EU|exfalso; apply N; reflexivity]. }
  assert (L1 : lookup w' 1 "interface" "r1__eth1" <> None) by (rewrite <- Q; vm_compute; discriminate). split; [exact L1|]. clear Q.
  intros rest DS (H1 & H2). destruct (H2 ("interface", "r1__eth1")%string L1) as (x & I & K). apply in_split in I as (l & m & EX).
  assert (TX : r_type x = "interface"%string) by (apply (f_equal fst) in K; exact K).
  pose proof (da_parent _ _ _ DS l x m EX) as P. rewrite TX in P. destruct (r_parent x) as [p|]; [|cbn in P; intuition discriminate].
  destruct P as (_ & y & c & I & KY & D & Ch). assert (IY : In y rest) by (rewrite EX; apply in_or_app; now left).
  destruct (H1 y c IY D) as (r & o & LK & _). assert (KK : row_key s_classes y = ("interface", "r1__eth1")%string) by (apply L; congruence).
  assert (TY : r_type y = "interface"%string) by (apply (f_equal fst) in KK; exact KK). rewrite TY in D. vm_compute in D. injection D as <-. destruct Ch.
Qed.
Print Assumptions C95_delete_refuted.
