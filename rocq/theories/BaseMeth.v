(** * BaseMeth: create_base, update_base, delete_base. *)
From Verif Require Export ConvVals.

(** the object but for its values and status *)
Definition rest_same (o o' : obj) : Prop :=
  o_cls o' = o_cls o /\ o_kids o' = o_kids o /\ o_flags o' = o_flags o /\ o_adapter o' = o_adapter o.

Lemma merge_cases ids attrs :
  ((exists k, In k (dkeys ids) /\ In k (dkeys attrs)) /\ merge_kw ids attrs = Err ExnTypeError) \/
  ((forall k, In k (dkeys ids) -> ~ In k (dkeys attrs)) /\ merge_kw ids attrs = Ok (ids ++ attrs)).
Proof.
  unfold merge_kw. destruct (existsb _ ids) eqn:E.
  - left. split; [|reflexivity]. apply existsb_exists in E as ([k v] & I & M). exists k. split.
    + unfold dkeys. apply in_map_iff. exists (k, v). auto.
    + now apply dmem_In.
  - right. split; [|reflexivity]. intros k I J. unfold dkeys in I. apply in_map_iff in I as ([k' v] & X & I). simpl in X. subst k'.
    assert (Y : existsb (fun kv => dmem attrs (fst kv)) ids = true) by (apply existsb_exists; exists (k, v); split; [exact I|now apply dmem_In]). congruence.
Qed.

Lemma dget_app {A} (d e : dict A) k : dget (d ++ e) k = match dget d k with Some v => Some v | None => dget e k end.
Proof. induction d as [|[k' v] d IH]; simpl; [reflexivity|]. destruct (String.eqb k k'); [reflexivity|exact IH]. Qed.

Lemma fields_cases c kw :
  let f := fun fd : string * option val => match dget kw (fst fd) with
                          | Some v => Ok (fst fd, v)
                          | None => match snd fd with Some d => Ok (fst fd, d) | None => Err ExnValidationError end
                          end in
  ((exists k, In (k, None) c /\ dget kw k = None) /\ rmapM f c = Err ExnValidationError) \/
  ((forall k, In (k, None) c -> dget kw k <> None) /\ exists l, rmapM f c = Ok l /\ dkeys l = dkeys c /\
     (NoDup (dkeys c) -> forall k dv, In (k, dv) c -> dget l k = match dget kw k with Some v => Some v | None => dv end)).
Proof.
  cbv zeta. induction c as [|[k dv] c IH]; simpl.
  - right. split; [intros k []|]. exists []. split; [reflexivity|]. split; [reflexivity|intros _ k dv []].
  - destruct (dget kw k) as [v|] eqn:G; [|destruct dv as [dv|]].
    + simpl. destruct IH as [((k' & I & N) & ->)|(H & l & -> & K & V)].
      * left. split; [exists k'; auto|reflexivity].
      * right. split; [intros k' [E|I]; [injection E as -> _; congruence|auto]|]. exists ((k, v) :: l). split; [reflexivity|]. unfold dkeys in *. simpl. split; [now rewrite K|].
        intros ND k' dv' [E|I]; inversion ND as [|? ? NI ND']; subst.
        -- injection E as -> ->. now rewrite String.eqb_refl, G.
        -- destruct (String.eqb_spec k' k) as [->|NE]; [|now apply V]. elim NI. apply in_map_iff. exists (k, dv'). auto.
    + simpl. destruct IH as [((k' & I & N) & ->)|(H & l & -> & K & V)].
      * left. split; [exists k'; auto|reflexivity].
      * right. split; [intros k' [E|I]; [discriminate|auto]|]. exists ((k, dv) :: l). split; [reflexivity|]. unfold dkeys in *. simpl. split; [now rewrite K|].
        intros ND k' dv' [E|I]; inversion ND as [|? ? NI ND']; subst.
        -- injection E as <- <-. now rewrite String.eqb_refl, G.
        -- destruct (String.eqb_spec k' k) as [->|NE]; [|now apply V]. elim NI. apply in_map_iff. exists (k, dv'). auto.
    + left. split; [exists k; auto|reflexivity].
Qed.

Lemma create_cases c a ids attrs : NoDup (dkeys (c_fields c)) ->
  ((exists k, In k (dkeys ids) /\ In k (dkeys attrs)) -> create_base c a ids attrs = Err ExnTypeError) /\
  ((forall k, In k (dkeys ids) -> ~ In k (dkeys attrs)) ->
     ((exists k, In (k, None) (c_fields c) /\ dget ids k = None /\ dget attrs k = None) -> create_base c a ids attrs = Err ExnValidationError) /\
     ((forall k, In (k, None) (c_fields c) -> dget ids k <> None \/ dget attrs k <> None) ->
        exists o, create_base c a ids attrs = Ok o /\ o_cls o = c /\ o_adapter o = Some a /\ o_flags o = c_flags c /\
          get_status o = (StSuccess, "Created successfully"%string) /\
          dkeys (o_vals o) = dkeys (c_fields c) /\
          (forall k dv, In (k, dv) (c_fields c) -> dget (o_vals o) k =
             match dget ids k with Some v => Some v | None => match dget attrs k with Some v => Some v | None => dv end end) /\
          dkeys (o_kids o) = c_kid_fields c /\ forall f l, In (f, l) (o_kids o) -> l = [])).
Proof.
  intros ND. destruct (merge_cases ids attrs) as [((k0 & I0 & J0) & EM)|(D & EM)]; unfold create_base; rewrite EM.
  - split; [reflexivity|]. intros D. elim (D k0 I0 J0).
  - split; [intros (k & I & J); elim (D k I J)|]. intros _. cbn [rbind]. unfold instantiate.
    assert (AP : forall k, dget (ids ++ attrs) k = None <-> dget ids k = None /\ dget attrs k = None).
    { intros k. rewrite dget_app. destruct (dget ids k); [split; [discriminate|intros [X _]; discriminate]|tauto]. }
    destruct (fields_cases (c_fields c) (ids ++ attrs)) as [((k0 & I0 & N0) & EF)|(H & l & EF & K & V)]; rewrite EF; cbn [rbind].
    + split; [reflexivity|]. intros H. apply AP in N0 as (N1 & N2). destruct (H k0 I0); contradiction.
    + split; [intros (k & I & N1 & N2); elim (H k I); now apply AP|]. intros _. eexists. split; [reflexivity|]. unfold get_status, set_status. cbn [o_cls o_adapter o_flags o_vals o_kids o_status o_msg].
      repeat (split; [reflexivity|]). split; [exact K|]. split; [intros k dv I; rewrite (V ND k dv I), dget_app; now destruct (dget ids k)|]. split.
      * unfold dkeys. rewrite map_map. cbn [fst]. apply map_id.
      * intros f l0 I. apply in_map_iff in I as (f' & E & _). cbn in E. now injection E as _ <-.
Qed.

Lemma setattrs_ok attrs : forall o, NoDup (dkeys attrs) -> (forall k, In k (dkeys attrs) -> In k (dkeys (o_vals o))) ->
  exists o', setattrs o attrs = (o', Ok tt) /\ rest_same o o' /\ get_status o' = get_status o /\ dkeys (o_vals o') = dkeys (o_vals o) /\
    forall k, dget (o_vals o') k = match dget attrs k with Some v => Some v | None => dget (o_vals o) k end.
Proof.
  induction attrs as [|[k v] attrs IH]; intros o ND H; simpl.
  - exists o. repeat split.
  - inversion ND as [|? ? NI ND']; subst. unfold setattr_val. assert (M : dmem (o_vals o) k = true) by (apply dmem_In, H; now left). rewrite M.
    assert (DK : dkeys (dset (o_vals o) k v) = dkeys (o_vals o)) by (apply dkeys_dset_in; now apply dmem_In).
    destruct (IH (set_o_vals o (dset (o_vals o) k v)) ND') as (o' & E & R & S & K & V).
    { intros k' I. cbn [o_vals set_o_vals]. rewrite DK. apply H. now right. }
    exists o'. split; [exact E|]. split; [exact R|]. split; [exact S|]. split; [rewrite K; exact DK|]. intros k'. rewrite V. cbn [o_vals set_o_vals].
    destruct (String.eqb_spec k' k) as [->|NE].
    + destruct (dget attrs k) as [v'|] eqn:G; [|now rewrite dget_dset_eq]. elim NI. apply dget_Some_In in G. unfold dkeys. apply in_map_iff. exists (k, v'). auto.
    + destruct (dget attrs k'); [reflexivity|]. rewrite dget_dset_neq; [reflexivity|congruence].
Qed.
Lemma setattrs_stops a : forall o k v b, (forall k, In k (dkeys a) -> In k (dkeys (o_vals o))) -> ~ In k (dkeys (o_vals o)) ->
  setattrs o (a ++ (k, v) :: b) = (fst (setattrs o a), Err ExnValueError).
Proof.
  induction a as [|[k0 v0] a IH]; intros o k v b H N; simpl.
  - unfold setattr_val. destruct (dmem (o_vals o) k) eqn:M; [apply dmem_In in M; contradiction|reflexivity].
  - unfold setattr_val. assert (M : dmem (o_vals o) k0 = true) by (apply dmem_In, H; now left). rewrite M.
    assert (DK : dkeys (dset (o_vals o) k0 v0) = dkeys (o_vals o)) by (apply dkeys_dset_in; now apply dmem_In).
    apply IH; cbn [o_vals set_o_vals]; rewrite DK; [intros k' I; apply H; now right|exact N].
Qed.

Lemma update_cases o attrs : NoDup (dkeys attrs) ->
  ((forall k, In k (dkeys attrs) -> In k (dkeys (o_vals o))) ->
     exists o', update_base o attrs = (o', Ok tt) /\ rest_same o o' /\ get_status o' = (StSuccess, "Updated successfully"%string) /\
       dkeys (o_vals o') = dkeys (o_vals o) /\ forall k, dget (o_vals o') k = match dget attrs k with Some v => Some v | None => dget (o_vals o) k end) /\
  (forall a k v b, attrs = a ++ (k, v) :: b -> (forall k', In k' (dkeys a) -> In k' (dkeys (o_vals o))) -> ~ In k (dkeys (o_vals o)) ->
     exists o', update_base o attrs = (o', Err ExnValueError) /\ rest_same o o' /\ get_status o' = get_status o /\
       dkeys (o_vals o') = dkeys (o_vals o) /\ forall k', dget (o_vals o') k' = match dget a k' with Some v' => Some v' | None => dget (o_vals o) k' end).
Proof.
  intros ND. split.
  - intros H. destruct (setattrs_ok attrs o ND H) as (o' & E & R & S & K & V). unfold update_base. rewrite E. eexists. split; [reflexivity|].
    split; [exact R|]. split; [reflexivity|]. split; [exact K|exact V].
  - intros a k v b -> H N. unfold update_base. rewrite (setattrs_stops a o k v b H N).
    assert (ND' : NoDup (dkeys a)) by (unfold dkeys in *; rewrite map_app in ND; now apply NoDup_app_l in ND).
    destruct (setattrs_ok a o ND' H) as (o' & E & R & S & K & V). rewrite E. cbn [fst]. eexists. split; [reflexivity|].
    split; [exact R|]. split; [exact S|]. split; [exact K|exact V].
Qed.
