(** * JsonFacts: reading a JSON text gives the value it was written for. *)
From Coq Require Import Ascii String List DecimalString DecimalZ DecimalPos DecimalFacts.
From Verif Require Import BaseFacts StoreFacts DifferCount.
From Verif Require Export JsonSpec LoadFacts ReprFacts.
Import ListNotations.
Open Scope string_scope. Open Scope list_scope.

(** ** strings *)
Lemma char_read c r : read_str (json_char c ++ r) = push c (read_str r).
Proof. destruct c as [[] [] [] [] [] [] [] []]; reflexivity. Qed.
Lemma body_read s r : read_str (json_body s ++ String """" r) = Some (s, r).
Proof.
  induction s as [|c s IH]; [reflexivity|]. cbn [json_body]. rewrite append_assoc, char_read, IH. reflexivity.
Qed.

(** ** numbers *)
Definition stopping (r : string) : Prop := match r with EmptyString => True | String c _ => In c [","; "]"; "}"]%char end.
Lemma stop_digit r : stopping r -> no_digit r = true.
Proof. destruct r as [|c r]; [reflexivity|]. intros [<-|[<-|[<-|[]]]]; reflexivity. Qed.
Lemma stop_fraction r : stopping r -> no_fraction r = true.
Proof. destruct r as [|c r]; [reflexivity|]. intros [<-|[<-|[<-|[]]]]; reflexivity. Qed.
Lemma digits_read d : forall p r, no_digit r = true -> read_digits (Zpos p) (NilEmpty.string_of_uint d ++ r) = (Zpos (Pos.of_uint_acc d p), r).
Proof.
  induction d; intros p r H; cbn [NilEmpty.string_of_uint Pos.of_uint_acc append]; 
    [|cbn [read_digits]; match goal with |- context [digit ?c] => let v := eval vm_compute in (digit c) in change (digit c) with v end; cbv iota;
      rewrite <- IHd by exact H; f_equal; lia..].
  destruct r as [|c r]; [reflexivity|]. cbn [read_digits]. unfold no_digit in H. destruct (digit c); [discriminate|reflexivity].
Qed.
Lemma to_uint_head p d : Pos.to_uint p <> Decimal.D0 d.
Proof.
  intros E. pose proof (Unsigned.to_of (Pos.to_uint p)) as T. rewrite Unsigned.of_to in T. cbn [N.to_uint] in T. rewrite E in T.
  unfold Decimal.unorm in T. destruct (Decimal.nzhead (Decimal.D0 d)) as [|x|x|x|x|x|x|x|x|x|x] eqn:N; try discriminate T.
  - injection T as ->. rewrite <- E in N. pose proof (Unsigned.of_to p) as O. rewrite E in O. discriminate O.
  - exact (nzhead_nonzero _ _ N).
Qed.
Lemma natural_read p r : no_digit r = true -> no_fraction r = true ->
  exists c t, NilZero.string_of_uint (Pos.to_uint p) = String c t /\ (exists n, digit c = Some n) /\ read_natural (String c t ++ r) = Some (Zpos p, r).
Proof.
  intros H F. pose proof (Unsigned.of_to p) as E. pose proof (to_uint_head p) as N.
  destruct (Pos.to_uint p) as [|d|d|d|d|d|d|d|d|d|d]; [discriminate E|now elim (N d)|..]; cbn [Pos.of_uint] in E; injection E as <-;
    (eexists; eexists; split; [reflexivity|]; split; [eexists; reflexivity|]); cbn [append read_natural];
    (let D := fresh in match goal with |- context [digit ?c] => let v := eval vm_compute in (digit c) in change (digit c) with v end);
    cbv iota; (match goal with |- context [read_digits (Z.of_nat ?k) _] => let v := eval vm_compute in (Z.of_nat k) in change (Z.of_nat k) with v end);
    rewrite digits_read by exact H; rewrite F; reflexivity.
Qed.
Lemma read_number n c r : (exists k, digit c = Some k) -> read_val (S n) (String c r) = match read_natural (String c r) with Some (z, r') => Some (VInt z, r') | None => None end.
Proof. intros [k D]. destruct c as [[] [] [] [] [] [] [] []]; try discriminate D; reflexivity. Qed.
Lemma int_read n z r : stopping r -> read_val (S n) (NilZero.string_of_int (Z.to_int z) ++ r) = Some (VInt z, r).
Proof.
  intros ST. pose proof (stop_digit r ST) as D. pose proof (stop_fraction r ST) as F. destruct z as [|p|p]; cbn [Z.to_int NilZero.string_of_int].
  - change (NilZero.string_of_uint (Pos.to_uint 1)) with "1". change (read_val (S n) (String "0" r) = Some (VInt 0, r)).
    rewrite read_number by (eexists; reflexivity). unfold read_natural. change (digit "0") with (Some 0%nat). cbv iota. now rewrite D, F.
  - destruct (natural_read p r D F) as (c & t & E & HD & R). rewrite E. cbn [append] in *. rewrite read_number by exact HD. now rewrite R.
  - destruct (natural_read p r D F) as (c & t & E & HD & R). rewrite E. change (match read_natural (String c t ++ r) with Some (z, r') => Some (VInt (- z), r') | None => None end = Some (VInt (Zneg p), r)).
    rewrite R. reflexivity.
Qed.

(** ** values *)
Lemma json_first v : exists c t, json_val v = String c t /\ is_space c = false /\ c <> "]"%char /\ c <> "}"%char.
Proof.
  destruct v as [ |[]|z| |s|l|d]; cbn [json_val]; try (eexists; eexists; split; [reflexivity|]; split; [reflexivity|]; split; discriminate).
  destruct z as [|p|p]; cbn [Z.to_int NilZero.string_of_int].
  - exists "0"%char, "". repeat split; discriminate.
  - destruct (natural_read p "" eq_refl eq_refl) as (c & t & E & (k & D) & _). rewrite E. exists c, t. split; [reflexivity|].
    split; [|split; intros ->; discriminate D]. destruct c as [[] [] [] [] [] [] [] []]; try reflexivity; discriminate D.
  - eexists; eexists; split; [reflexivity|]. repeat split; discriminate.
Qed.
Lemma skip_first c t : is_space c = false -> skip (String c t) = String c t.
Proof. intros E. cbn [skip]. now rewrite E. Qed.
Lemma open_list {A} c s (f g : string -> A) : c <> "]"%char -> match String c s with String "]" r' => f r' | r1 => g r1 end = g (String c s).
Proof. intros N. destruct c as [[] [] [] [] [] [] [] []]; try reflexivity. now elim N. Qed.
Lemma length_app (a b : string) : String.length (a ++ b) = (String.length a + String.length b)%nat.
Proof. induction a; simpl; auto. Qed.
Lemma dset_new d k (v : val) : ~ In k (dkeys d) -> dset d k v = d ++ [(k, v)].
Proof.
  induction d as [|[k' v'] d IH]; intros N; [reflexivity|]. cbn [dset]. destruct (String.eqb_spec k k') as [->|NE]; [elim N; now left|].
  cbn [app]. f_equal. apply IH. intros I. apply N. now right.
Qed.

Definition reads (v : val) : Prop := forall n r, (String.length (json_val v) < n)%nat -> stopping r -> read_val n (json_val v ++ r) = Some (nulled v, r).
Lemma list_reads x xs : (forall v, In v (x :: xs) -> reads v) -> forall acc n r, (S (String.length (join "," (map json_val (x :: xs)))) < n)%nat ->
  read_list n acc (join "," (map json_val (x :: xs)) ++ String "]" r) = Some (acc ++ map nulled (x :: xs), r).
Proof.
  revert x. induction xs as [|y ys IH]; intros x RD acc n r L; destruct n as [|n]; [lia| |lia|].
  - change (join "," (map json_val [x])) with (json_val x) in *. cbn [read_list]. rewrite (RD x) by (try (now left); try lia; right; now left). reflexivity.
  - change (join "," (map json_val (x :: y :: ys))) with (json_val x ++ "," ++ join "," (map json_val (y :: ys)))%string in *.
    rewrite !length_app in L. cbn [String.length] in L.
    cbn [read_list]. rewrite !append_assoc. rewrite (RD x) by (try (now left); try lia). change (skip ("," ++ join "," (map json_val (y :: ys)) ++ String "]" r)) with (String "," (join "," (map json_val (y :: ys)) ++ String "]" r)).
    cbv iota. rewrite (IH y); [|intros v I; apply RD; now right|lia]. rewrite <- app_assoc. reflexivity.
Qed.
Definition member (kv : string * val) : string := (json_str (fst kv) ++ ":" ++ json_val (snd kv))%string.
Definition null_member (kv : string * val) : string * val := (fst kv, nulled (snd kv)).
Lemma dict_reads x xs : (forall kv, In kv (x :: xs) -> reads (snd kv)) -> forall acc n r, (S (String.length (join "," (map member (x :: xs)))) < n)%nat ->
  NoDup (dkeys acc ++ dkeys (x :: xs)) ->
  read_dict n acc (join "," (map member (x :: xs)) ++ String "}" r) = Some (acc ++ map null_member (x :: xs), r).
Proof.
  revert x. induction xs as [|y ys IH]; intros [k v] RD acc n r L ND; destruct n as [|n]; [lia| |lia|].
  - change (join "," (map member [(k, v)])) with (json_str k ++ ":" ++ json_val v)%string in *. unfold json_str in *.
    cbn [append] in L. repeat first [rewrite length_app in L | progress cbn [String.length] in L].
    cbn [read_dict append]. rewrite skip_first by reflexivity. cbv iota. rewrite !append_assoc. cbn [append]. rewrite body_read. rewrite skip_first by reflexivity. cbv iota.
    rewrite (RD (k, v)); [|now left|cbn [snd]; lia|right; right; now left]. rewrite skip_first by reflexivity. cbv iota.
    rewrite dset_new; [reflexivity|]. cbn [dkeys map fst] in ND. apply NoDup_remove_2 in ND. now rewrite app_nil_r in ND.
  - change (join "," (map member ((k, v) :: y :: ys))) with ((json_str k ++ ":" ++ json_val v) ++ "," ++ join "," (map member (y :: ys)))%string in *. unfold json_str in *.
    cbn [append] in L. repeat first [rewrite length_app in L | progress cbn [String.length] in L].
    cbn [read_dict append]. rewrite skip_first by reflexivity. cbv iota. rewrite !append_assoc. cbn [append]. rewrite body_read. rewrite skip_first by reflexivity. cbv iota.
    rewrite ?append_assoc. cbn [append]. rewrite (RD (k, v)); [|now left|cbn [snd]; lia|now left]. rewrite skip_first by reflexivity. cbv iota.
    assert (NK : ~ In k (dkeys acc)).
    { intros I. apply NoDup_remove_2 in ND. apply ND. apply in_app_iff. now left. }
    cbn [snd]. rewrite dset_new by exact NK. rewrite (IH y); [|intros kv I; apply RD; now right|lia|].
    + rewrite <- app_assoc. reflexivity.
    + unfold dkeys in *. rewrite map_app. cbn [map fst] in *. rewrite <- app_assoc. exact ND.
Qed.
Lemma val_reads v : proper v -> reads v.
Proof.
  induction v as [ |b|z| |s|l IH|d IH] using val_ind'; intros PR n r L ST; (destruct n as [|n]; [cbn in L; lia|]).
  - reflexivity.
  - destruct b; reflexivity.
  - now apply int_read.
  - reflexivity.
  - cbn [json_val nulled]. unfold json_str. cbn [append]. change (match read_str ((json_body s ++ """") ++ r) with Some (x, r') => Some (VStr x, r') | None => None end = Some (VStr s, r)).
    rewrite append_assoc. cbn [append]. now rewrite body_read.
  - inversion PR as [| | | | |l' PL|]; subst. rewrite Forall_forall in IH. destruct l as [|x xs]; [reflexivity|].
    cbn [json_val] in *. rewrite !length_app in L. cbn [String.length] in L. cbn [nulled].
    change (("[" ++ join "," (map json_val (x :: xs)) ++ "]") ++ r)%string with (String "[" ((join "," (map json_val (x :: xs)) ++ "]") ++ r)).
    rewrite append_assoc. cbn [append].
    destruct (json_first x) as (c & t & E & SP & N1 & _).
    assert (HD : exists t', (join "," (map json_val (x :: xs)) ++ String "]" r)%string = String c t').
    { destruct xs as [|y ys]; [exists (t ++ String "]" r)%string|exists ((t ++ "," ++ join "," (map json_val (y :: ys))) ++ String "]" r)%string].
      - change (join "," (map json_val [x])) with (json_val x). now rewrite E.
      - change (join "," (map json_val (x :: y :: ys))) with (json_val x ++ "," ++ join "," (map json_val (y :: ys)))%string. now rewrite E. }
    destruct HD as (t' & HD).
    change (match skip (join "," (map json_val (x :: xs)) ++ String "]" r) with
            | String "]" r' => Some (VList [], r')
            | r1 => match read_list n [] r1 with Some (l, r') => Some (VList l, r') | None => None end
            end = Some (VList (map nulled (x :: xs)), r)).
    rewrite HD, skip_first by exact SP. rewrite (open_list c t' (fun r' => Some (VList [], r')) (fun r1 => match read_list n [] r1 with Some (l, r') => Some (VList l, r') | None => None end) N1).
    rewrite <- HD, (list_reads x xs); [reflexivity| |lia]. intros v I. apply IH; auto.
  - inversion PR as [| | | | | |d' ND PD]; subst. rewrite Forall_forall in IH. destruct d as [|[k v] xs]; [reflexivity|].
    cbn [json_val] in *. change (map (fun kv : string * val => (json_str (fst kv) ++ ":" ++ json_val (snd kv))%string)) with (map member) in *.
    rewrite !length_app in L. cbn [String.length] in L. cbn [nulled].
    change (("{" ++ join "," (map member ((k, v) :: xs)) ++ "}") ++ r)%string with (String "{" ((join "," (map member ((k, v) :: xs)) ++ "}") ++ r)).
    rewrite append_assoc. cbn [append].
    assert (HD : exists t', (join "," (map member ((k, v) :: xs)) ++ String "}" r)%string = String """" t').
    { destruct xs as [|y ys]; eexists; reflexivity. }
    destruct HD as (t' & HD).
    change (match skip (join "," (map member ((k, v) :: xs)) ++ String "}" r) with
            | String "}" r' => Some (VDict [], r')
            | r1 => match read_dict n [] r1 with Some (d, r') => Some (VDict d, r') | None => None end
            end = Some (VDict (map null_member ((k, v) :: xs)), r)).
    rewrite HD, skip_first by reflexivity. cbv iota.
    rewrite <- HD, (dict_reads (k, v) xs); [reflexivity| |lia|exact ND]. intros [k1 v1] I. cbn [snd]. apply (IH (k1, v1) I). eapply PD; eauto.
Qed.
Lemma loads_val v : proper v -> json_loads (json_val v) = Some (nulled v).
Proof.
  intros PR. unfold json_loads. rewrite <- (append_nil_r (json_val v)) at 2. rewrite (val_reads v PR); [reflexivity|lia|exact I].
Qed.

Lemma nulled_same v : has_nan v = false -> nulled v = v.
Proof.
  induction v as [ |b|z| |s|l IH|d IH] using val_ind'; cbn [has_nan nulled]; intros H; try reflexivity; [discriminate| |]; rewrite Forall_forall in IH; f_equal.
  - induction l as [|x l IHl]; [reflexivity|]. cbn [existsb] in H. apply orb_false_iff in H as [H1 H2]. cbn [map]. f_equal; [apply IH; [now left|exact H1]|]. apply IHl; [|exact H2]. intros y I. apply IH. now right.
  - induction d as [|[k v] d IHd]; [reflexivity|]. cbn [existsb snd] in H. apply orb_false_iff in H as [H1 H2]. cbn [map fst snd]. f_equal; [f_equal; apply (IH (k, v)); [now left|exact H1]|]. apply IHd; [|exact H2]. intros y I. apply IH. now right.
Qed.

(** ** models *)
Lemma rmapM_same {A B} (f g : A -> result B) l : (forall x, In x l -> f x = g x) -> rmapM f l = rmapM g l.
Proof.
  induction l as [|x l IH]; intros E; [reflexivity|]. cbn [rmapM]. rewrite (E x (or_introl eq_refl)). rewrite IH; [reflexivity|]. intros y I. apply E. now right.
Qed.
Lemma inst_ext c kw kw' kids kids' fl ad : (forall f, In f (map fst (c_fields c)) -> dget kw f = dget kw' f) -> (forall f, In f (c_kid_fields c) -> dget kids f = dget kids' f) ->
  instantiate c kw kids fl ad = instantiate c kw' kids' fl ad.
Proof.
  intros E1 E2. unfold instantiate.
  assert (E : map (fun f => (f, match dget kids f with Some l => l | None => [] end)) (c_kid_fields c) = map (fun f => (f, match dget kids' f with Some l => l | None => [] end)) (c_kid_fields c)).
  { apply map_ext_in. intros f I. now rewrite E2. }
  rewrite E. f_equal. apply rmapM_same. intros fd I. rewrite E1; [reflexivity|]. now apply in_map.
Qed.
Lemma dget_keys {A} (p : string -> bool) (d : dict A) k : dget (filter (fun kv => p (fst kv)) d) k = if p k then dget d k else None.
Proof.
  induction d as [|[k' v] d IH]; [now destruct (p k)|]. cbn [filter fst dget]. destruct (String.eqb_spec k k') as [<-|N].
  - destruct (p k) eqn:P; [cbn [dget]; now rewrite String.eqb_refl|exact IH].
  - destruct (p k'); [cbn [dget]; destruct (String.eqb_spec k k'); [contradiction|exact IH]|exact IH].
Qed.
Lemma dget_mapv {A B} (g : A -> B) d k : dget (map (fun kv => (fst kv, g (snd kv))) d) k = option_map g (dget d k).
Proof. induction d as [|[k' v] d IH]; [reflexivity|]. cbn [map dget fst snd]. destruct (String.eqb k k'); [reflexivity|exact IH]. Qed.
Lemma dget_appd {A} (d e : dict A) k : dget (d ++ e) k = match dget d k with Some v => Some v | None => dget e k end.
Proof. induction d as [|[k' v] d IH]; [reflexivity|]. cbn [app dget]. destruct (String.eqb k k'); [reflexivity|exact IH]. Qed.
Lemma names_back l : names_in (VList (map VStr l)) = l.
Proof. cbn [names_in]. induction l as [|x l IH]; [reflexivity|]. cbn [map flat_map app]. now rewrite IH. Qed.

Section Model.
  Variable o : obj.
  Hypothesis WS : well_shaped o.
  Hypothesis ON : own_names (o_cls o).
  Notation du := (obj_dump true o).
  Lemma du_vals_in k v : In (k, v) (du_vals du) -> In (k, v) (o_vals o).
  Proof. cbn [obj_dump du_vals]. intros I. now apply filter_In in I. Qed.
  Lemma du_kids_in k v : In (k, v) (du_kids du) -> In (k, v) (o_kids o).
  Proof. cbn [obj_dump du_kids]. intros I. now apply filter_In in I. Qed.
  Lemma val_name k : In k (dkeys (du_vals du)) -> In k (map fst (c_fields (o_cls o))).
  Proof. destruct WS as (SV & _). rewrite <- SV. intros I. apply in_map_iff in I as ([k' v] & <- & I). apply du_vals_in in I. now apply (in_map fst) in I. Qed.
  Lemma kid_name k : In k (dkeys (du_kids du)) -> In k (c_kid_fields (o_cls o)).
  Proof. destruct WS as (_ & _ & SK & _). rewrite <- SK. intros I. apply in_map_iff in I as ([k' v] & <- & I). apply du_kids_in in I. now apply (in_map fst) in I. Qed.
  Lemma members_NoDup : NoDup (dkeys (dump_members du)).
  Proof.
    pose proof WS as (SV & NV & SK & NK). unfold own_names in ON. inversion ON as [|? ? N1 N2]; subst.
    assert (NV' : NoDup (dkeys (du_vals du))) by (cbn [obj_dump du_vals]; apply NoDup_map_filter; fold (dkeys (o_vals o)); now rewrite SV).
    assert (NK' : NoDup (dkeys (du_kids du))) by (cbn [obj_dump du_kids]; apply NoDup_map_filter; fold (dkeys (o_kids o)); now rewrite SK).
    assert (NB : NoDup (dkeys (du_vals du) ++ dkeys (du_kids du))).
    { apply NoDup_app_intro; auto. intros k I J. apply val_name in I. apply kid_name in J.
      clear - N2 I J. induction (map fst (c_fields (o_cls o))) as [|x l IH]; [destruct I|]. cbn [app] in N2. inversion N2; subst. destruct I as [->|I]; [|auto]. apply H1. apply in_app_iff. now right. }
    unfold dump_members. unfold dkeys in *. rewrite !map_app, map_map. cbn [fst].
    destruct (du_flags du); cbn [map app fst]; [|exact NB]. constructor; [|exact NB].
    intros I. apply N1. apply in_app_iff in I as [I|I]; apply in_app_iff; [left; now apply val_name|right; now apply kid_name].
  Qed.
  Hypothesis PV : forall k v, In (k, v) (o_vals o) -> proper v.
  Lemma members_proper : proper (VDict (dump_members du)).
  Proof.
    apply pr_dict; [exact members_NoDup|]. intros k v I. unfold dump_members in I. apply in_app_iff in I as [I|I].
    - destruct (du_flags du); [|destruct I]. destruct I as [[= <- <-]|[]]. constructor.
    - apply in_app_iff in I as [I|I]; [apply du_vals_in in I; exact (PV k v I)|]. apply in_map_iff in I as ([f l] & [= <- <-] & I). constructor. intros x J. apply in_map_iff in J as (s & <- & _). constructor.
  Qed.
  Lemma model_reads : json_loads (model_json o) = Some (nulled (VDict (dump_members du))).
  Proof. apply loads_val, members_proper. Qed.
  Hypothesis NN : forall k v, In (k, v) (o_vals o) -> has_nan v = false.
  Lemma members_free : has_nan (VDict (dump_members du)) = false.
  Proof.
    cbn [has_nan]. apply Bool.not_true_iff_false. intros H. apply existsb_exists in H as ([k v] & I & H). cbn [snd] in H. unfold dump_members in I. apply in_app_iff in I as [I|I].
    - destruct (du_flags du); [|destruct I]. destruct I as [[= <- <-]|[]]. discriminate.
    - apply in_app_iff in I as [I|I]; [apply du_vals_in in I; rewrite (NN k v I) in H; discriminate|]. apply in_map_iff in I as ([f l] & [= <- <-] & I). cbn [has_nan snd] in H.
      apply existsb_exists in H as (x & J & H). apply in_map_iff in J as (s & <- & _). discriminate.
  Qed.
  Lemma model_same : json_loads (model_json o) = Some (VDict (dump_members du)).
  Proof. rewrite model_reads. f_equal. apply nulled_same, members_free. Qed.
  Lemma from_same : from_members (o_cls o) (dump_members du) = load_obj (o_cls o) du.
  Proof.
    unfold own_names in ON. inversion ON as [|? ? N1 N2]; subst.
    assert (AP : forall k, In k (map fst (c_fields (o_cls o))) -> ~ In k (c_kid_fields (o_cls o))).
    { intros k I J. clear - N2 I J. induction (map fst (c_fields (o_cls o))) as [|x l IH]; [destruct I|]. cbn [app] in N2. inversion N2; subst. destruct I as [->|I]; [|auto]. apply H1. apply in_app_iff. now right. }
    assert (NF : forall k, In k (map fst (c_fields (o_cls o)) ++ c_kid_fields (o_cls o)) -> dget (match du_flags du with Some n => [("model_flags", VInt (Z.of_N n))] | None => [] end) k = None).
    { intros k I. apply dget_None. intros J. destruct (du_flags du); [|destruct J]. destruct J as [<-|[]]. exact (N1 I). }
    assert (FL : (match dget (dump_members du) "model_flags" with Some (VInt z) => Some (Z.to_N z) | _ => None end) = du_flags du).
    { unfold dump_members. rewrite dget_appd. destruct (du_flags du) as [n|] eqn:D.
      - cbn [dget]. change (String.eqb "model_flags" "model_flags") with true. cbv iota. now rewrite N2Z.id.
      - cbn [dget]. destruct (dget (du_vals du ++ _) "model_flags") eqn:G; [|reflexivity]. exfalso. apply N1.
        apply dget_Some_In in G. apply in_app_iff in G as [G|G]; apply in_app_iff.
        + left. apply val_name. now apply (in_map fst) in G.
        + right. apply in_map_iff in G as ([f l] & [= <- _] & G). apply kid_name. now apply (in_map fst) in G. }
    unfold from_members, load_obj. rewrite FL. apply inst_ext.
    - intros f I. rewrite (dget_keys (fun k => smem k (map fst (c_fields (o_cls o))))). rewrite (proj2 (smem_In f _) I).
      unfold dump_members. rewrite dget_appd, NF by (apply in_app_iff; now left). rewrite dget_appd. destruct (dget (du_vals du) f); [reflexivity|].
      apply dget_None. intros J. unfold dkeys in J. rewrite map_map in J. cbn [fst] in J. apply (AP f I), kid_name, J.
    - intros f I. rewrite (dget_mapv names_in). rewrite (dget_keys (fun k => smem k (c_kid_fields (o_cls o)))). rewrite (proj2 (smem_In f _) I).
      unfold dump_members. rewrite dget_appd, NF by (apply in_app_iff; now right). rewrite dget_appd.
      assert (dget (du_vals du) f = None) as -> by (apply dget_None; intros J; exact (AP f (val_name f J) I)).
      rewrite (dget_mapv (fun l => VList (map VStr l))). destruct (dget (du_kids du) f); cbn [option_map]; [|reflexivity]. now rewrite names_back.
  Qed.
  Lemma model_back : ids_as_default o -> exists d o', json_loads (model_json o) = Some (VDict d) /\ from_members (o_cls o) d = Ok o' /\ reloaded o o' /\ get_unique_id o' = get_unique_id o.
  Proof.
    intros ID. destruct (load_dump true o WS (fun _ => ID)) as (o' & L & R & U & _).
    exists (dump_members du), o'. split; [exact model_same|]. split; [now rewrite from_same|]. now split.
  Qed.
End Model.

(** ** one line *)
Definition visible (s : string) : Prop := forall c, In c (list_ascii_of_string s) -> 32 <= nat_of_ascii c.
Lemma visible_app s t : visible s -> visible t -> visible (s ++ t)%string.
Proof. unfold visible. intros A B c. induction s as [|x s IH]; [apply B|]. cbn [append list_ascii_of_string In] in *. intros [->|I]; [apply A; now left|]. apply IH; [|exact I]. intros y J. apply A. now right. Qed.
Lemma visible_char c : visible (json_char c).
Proof. intros d. destruct c as [[] [] [] [] [] [] [] []]; cbn; intros I; repeat (destruct I as [<-|I]; [apply Nat.leb_le; reflexivity|]); destruct I. Qed.
Lemma visible_lit s : forallb (fun c => Nat.leb 32 (nat_of_ascii c)) (list_ascii_of_string s) = true -> visible s.
Proof. intros H c I. rewrite forallb_forall in H. apply Nat.leb_le. exact (H c I). Qed.
Lemma visible_str s : visible (json_str s).
Proof.
  unfold json_str. apply (visible_app """"); [now apply visible_lit|]. apply visible_app; [|now apply visible_lit].
  induction s as [|c s IH]; [intros d []|]. cbn [json_body]. apply visible_app; [apply visible_char|exact IH].
Qed.
Lemma visible_uint d : visible (NilEmpty.string_of_uint d).
Proof. induction d; cbn [NilEmpty.string_of_uint]; [intros c []|..]; intros c [<-|I]; try (apply Nat.leb_le; reflexivity); exact (IHd c I). Qed.
Lemma visible_int z : visible (NilZero.string_of_int z).
Proof.
  assert (U : forall d, visible (NilZero.string_of_uint d)) by (intros d; unfold NilZero.string_of_uint; destruct d; [now apply visible_lit|..]; apply visible_uint).
  destruct z as [d|d]; cbn [NilZero.string_of_int]; [apply U|]. apply (visible_app "-"); [now apply visible_lit|apply U].
Qed.
Lemma visible_join l : (forall s, In s l -> visible s) -> visible (join "," l).
Proof.
  induction l as [|x l IH]; intros H; [intros c []|]. destruct l as [|y l]; [cbn [join]; apply H; now left|].
  change (join "," (x :: y :: l)) with (x ++ "," ++ join "," (y :: l))%string. apply visible_app; [apply H; now left|]. apply visible_app; [now apply visible_lit|]. apply IH. intros s I. apply H. now right.
Qed.
Lemma visible_val v : visible (json_val v).
Proof.
  induction v as [ |b|z| |s|l IH|d IH] using val_ind'; cbn [json_val]; try (now apply visible_lit); try (rewrite Forall_forall in IH).
  - destruct b; now apply visible_lit.
  - apply visible_int.
  - apply visible_str.
  - apply visible_app; [now apply visible_lit|]. apply visible_app; [|now apply visible_lit]. apply visible_join. intros s I. apply in_map_iff in I as (x & <- & I). exact (IH x I).
  - apply visible_app; [now apply visible_lit|]. apply visible_app; [|now apply visible_lit]. apply visible_join. intros s I. apply in_map_iff in I as (x & <- & I).
    apply visible_app; [apply visible_str|]. apply visible_app; [now apply visible_lit|]. exact (IH x I).
Qed.
