(** * HookFacts: what hooks write into the object. *)
From Verif Require Export SyncerDefs ModelFacts.

(** [o'] is [o] up to the values of the fields [X], which are not identifiers *)
Definition vals_but (X : string -> Prop) (v v' : dict val) : Prop :=
  Forall2 (fun kv kv' => fst kv' = fst kv /\ (X (fst kv) \/ snd kv' = snd kv)) v v'.
Definition same_but (X : string -> Prop) (o o' : obj) : Prop :=
  o_cls o' = o_cls o /\ o_kids o' = o_kids o /\ o_flags o' = o_flags o /\ get_identifiers o' = get_identifiers o /\
  vals_but X (o_vals o) (o_vals o').

Lemma vals_but_refl X v : vals_but X v v.
Proof. induction v; constructor; auto. Qed.
Lemma vals_but_trans X a b c : vals_but X a b -> vals_but X b c -> vals_but X a c.
Proof.
  intros H. revert c. induction H as [|x y a b (E & D) _ IH]; intros c H2; inversion H2 as [|? z ? c' (E2 & D2) T]; subst; [constructor|].
  constructor; [|now apply IH]. split; [congruence|]. destruct D as [D|D]; [now left|]. rewrite E in D2. destruct D2 as [D2|D2]; [now left|right; congruence].
Qed.
Lemma vals_but_weak (X Y : string -> Prop) a b : (forall k, X k -> Y k) -> vals_but X a b -> vals_but Y a b.
Proof. intros W H. induction H as [|x y a b (E & D) _ IH]; constructor; [|exact IH]. split; [exact E|]. destruct D; auto. Qed.
Lemma vals_but_keys X a b : vals_but X a b -> dkeys b = dkeys a.
Proof. induction 1 as [|x y a b (E & _) _ IH]; [reflexivity|]. unfold dkeys in *. cbn [map]. now rewrite E, IH. Qed.
Lemma vals_but_get X a b k : vals_but X a b -> ~ X k -> dget b k = dget a k.
Proof.
  intros H N. induction H as [|[x v] [y v'] a b (E & D) _ IH]; [reflexivity|]. cbn [fst snd] in *. subst y. cbn [dget].
  destruct (String.eqb_spec k x) as [->|_]; [|exact IH]. destruct D as [D|D]; [contradiction|now rewrite D].
Qed.
Lemma vals_but_none a b : vals_but (fun _ => False) a b -> b = a.
Proof. induction 1 as [|[x v] [y v'] a b (E & D) _ IH]; [reflexivity|]. cbn [fst snd] in *. destruct D as [[]|D]. congruence. Qed.
Lemma vals_but_filter X a b l : vals_but X a b -> (forall k, In k l -> ~ X k) ->
  filter (fun kv => smem (fst kv) l) b = filter (fun kv => smem (fst kv) l) a.
Proof.
  intros H N. induction H as [|[x v] [y v'] a b (E & D) _ IH]; [reflexivity|]. cbn [fst snd filter] in *. subst y.
  destruct (smem x l) eqn:S; [|exact IH]. destruct D as [D|D]; [exfalso; apply smem_In in S; exact (N x S D)|now rewrite IH, D].
Qed.
Lemma vals_but_dset (X : string -> Prop) v k x : In k (dkeys v) -> X k -> vals_but X v (dset v k x).
Proof.
  intros I D. induction v as [|[k' y] v IH]; [destruct I|]. cbn [dset]. destruct (String.eqb_spec k k') as [->|N].
  - constructor; [split; [reflexivity|left; exact D]|apply vals_but_refl].
  - constructor; [split; [reflexivity|right; reflexivity]|]. apply IH. destruct I as [I|I]; [now destruct N|exact I].
Qed.

Lemma same_but_refl X o : same_but X o o.
Proof. repeat split. apply vals_but_refl. Qed.
Lemma same_but_trans X a b c : same_but X a b -> same_but X b c -> same_but X a c.
Proof. intros (A1 & A2 & A3 & A4 & A5) (B1 & B2 & B3 & B4 & B5). repeat split; try congruence. eapply vals_but_trans; eauto. Qed.
Lemma same_but_weak (X Y : string -> Prop) o o' : (forall k, X k -> Y k) -> same_but X o o' -> same_but Y o o'.
Proof. intros W (A1 & A2 & A3 & A4 & A5). repeat split; auto. eapply vals_but_weak; eauto. Qed.
Lemma same_but_uid X o o' : same_but X o o' -> get_unique_id o' = get_unique_id o.
Proof. intros (A1 & _ & _ & A4 & _). unfold get_unique_id. now rewrite A1, A4. Qed.
Lemma same_but_type X o o' : same_but X o o' -> get_type o' = get_type o.
Proof. intros (A1 & _). unfold get_type. now rewrite A1. Qed.
Lemma same_but_attrs X o o' : same_but X o o' -> (forall k, In k (c_attributes (o_cls o)) -> ~ X k) -> get_attrs o' = get_attrs o.
Proof. intros (A1 & _ & _ & _ & A5) N. unfold get_attrs, dump_include. rewrite A1. now apply (vals_but_filter X). Qed.
Lemma same_but_status X o st msg : same_but X o (set_status o st msg).
Proof. repeat split. apply vals_but_refl. Qed.

Lemma fields_but (X : string -> Prop) l : (forall k, In k (dkeys l) -> X k) -> forall o, same_but X o (set_fields l o).
Proof.
  induction l as [|[k v] l IH]; intros W o; cbn [set_fields]; [apply same_but_refl|].
  eapply same_but_trans; [|apply IH; intros k' I; apply W; now right]. destruct (own_field o k) eqn:F; [|apply same_but_refl].
  unfold own_field in F. apply andb_true_iff in F as (F1 & F2). apply smem_In in F1.
  assert (V : vals_but (fun x => x = k) (o_vals o) (dset (o_vals o) k v)) by (apply vals_but_dset; auto).
  repeat split.
  - unfold get_identifiers, dump_include. cbn [set_o_vals o_cls o_vals]. apply (vals_but_filter _ _ _ _ V). intros x I ->.
    apply negb_true_iff in F2. apply smem_In in I. congruence.
  - eapply vals_but_weak; [|exact V]. intros x ->. apply W. now left.
Qed.
Lemma fields_kept l : forall o, o_status (set_fields l o) = o_status o /\ o_msg (set_fields l o) = o_msg o /\ o_adapter (set_fields l o) = o_adapter o.
Proof.
  induction l as [|[k v] l IH]; intros o; cbn [set_fields]; [auto|]. destruct (own_field o k); [|apply IH].
  destruct (IH (set_o_vals o (dset (o_vals o) k v))) as (A & B & C). auto.
Qed.
(** the fields that a hook writes *)
Definition writes (out : outcome) (k : string) : Prop := In k (dkeys (ho_fields out)).
Lemma apply_status_but X x o : same_but X o (apply_status x o).
Proof. destruct x as [[st msg]|]; [apply same_but_status|apply same_but_refl]. Qed.
Lemma apply_hook_but (X : string -> Prop) out o : (forall k, writes out k -> X k) -> same_but X o (apply_hook out o).
Proof. intros W. unfold apply_hook. eapply same_but_trans; [apply apply_status_but|apply fields_but; exact W]. Qed.
Definition anyf (_ : string) : Prop := True.
Lemma apply_hook_any out o : same_but anyf o (apply_hook out o).
Proof. apply apply_hook_but. unfold anyf. auto. Qed.
Lemma apply_hook_adapter out o : o_adapter (apply_hook out o) = o_adapter o.
Proof.
  unfold apply_hook. destruct (fields_kept (ho_fields out) (apply_status (ho_status out) o)) as (_ & _ & ->). now destruct (ho_status out) as [[]|].
Qed.
