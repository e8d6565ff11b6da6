(** * ServerSample: checking [server_dst] on concrete worlds. *)
From Verif Require Export ServerFacts ConvSample.

(** ** Checking a destination *)
Definition filedb (i : string) (kv : string * obj) : bool :=
  match get_unique_id (snd kv) with
  | Ok u => String.eqb (fst kv) (redis_key i (get_type (snd kv)) u) && RedisSpec.plain (get_type (snd kv)) && negb (N.testbit (o_flags (snd kv)) 1)
  | Err _ => false
  end.
Definition classb (tc : string * cls) : bool :=
  String.eqb (c_modelname (snd tc)) (fst tc) && RedisSpec.plain (fst tc) && nodupb (dkeys (c_fields (snd tc))) && negb (N.testbit (c_flags (snd tc)) 1).
Definition serverb (w : world) (dst : aid) (i : string) : bool :=
  match nth_error (w_ads w) dst with
  | Some da => match ad_store da with SRedis j => String.eqb i j | SLocal _ => false end && RedisSpec.plain i && nodupb (dkeys (w_redis w)) &&
      forallb classb (ad_classes da) && forallb (filedb i) (w_redis w)
  | None => false
  end.
Lemma serverb_ok w dst i : serverb w dst i = true -> exists da, server_dst w dst da i.
Proof.
  unfold serverb. destruct (nth_error (w_ads w) dst) as [da|] eqn:A; [|discriminate]. rewrite !andb_true_iff, !forallb_forall.
  intros ((((H1 & H2) & H3) & H4) & H5). exists da.
  assert (CL : forall t c, dget (ad_classes da) t = Some c -> c_modelname c = t /\ RedisSpec.plain t = true /\ NoDup (dkeys (c_fields c)) /\ ~ skips_children (c_flags c)).
  { intros t c G. apply dget_Some_In in G. specialize (H4 _ G). unfold classb in H4. cbn [fst snd] in H4. rewrite !andb_true_iff, String.eqb_eq, negb_true_iff in H4.
    destruct H4 as (((E1 & E2) & E3) & E4). split; [exact E1|]. split; [exact E2|]. split; [now apply nodupb_ok|]. unfold skips_children. congruence. }
  constructor; auto.
  - destruct (ad_store da) as [d|j]; [discriminate|]. apply String.eqb_eq in H1. now subst.
  - now apply nodupb_ok.
  - intros t c u o C G. unfold on_server in G. apply dget_Some_In in G. specialize (H5 _ G). unfold filedb in H5. cbn [fst snd] in H5.
    destruct (get_unique_id o) as [u'|] eqn:U; [|discriminate]. rewrite !andb_true_iff, String.eqb_eq, negb_true_iff in H5. destruct H5 as ((E1 & E2) & E3).
    destruct (CL t c C) as (_ & P & _). destruct (key_inj _ _ _ _ _ _ H2 P H2 E2 E1) as (_ & -> & ->).
    split; [reflexivity|]. split; [reflexivity|]. unfold skips_children. congruence.
Qed.

Definition server_posedb (w : world) (dst : aid) (i : string) (gs : dict (dict elem)) : bool :=
  forallb (fun e => match name_of w dst e with Some k => forallb (fun e' => negb (key_is (name_of w dst e') k)) (deletes gs) | None => true end) (creates gs) &&
  forallb (fun e => match e_action e with
                    | Some _ => true
                    | None => match name_of w dst e with
                              | Some k => match on_server w i (fst k) (snd k) with Some _ => true | None => false end &&
                                          forallb (fun e' => negb (key_is (name_of w dst e') k)) (deletes gs)
                              | None => true end end) (tree_all gs).
Lemma server_posedb_ok w dst i gs : server_posedb w dst i gs = true -> no_moves w dst gs /\ unchanged_on_server w dst i gs.
Proof.
  unfold server_posedb. intros H. apply andb_prop in H as [H2 H3]. rewrite forallb_forall in H2, H3. split.
  - intros k (e1 & O1 & A1 & N1) (e2 & O2 & A2 & N2). specialize (H2 _ (In_creates _ _ O1 A1)). rewrite (name_of_ok _ _ _ _ N1) in H2.
    rewrite forallb_forall in H2. specialize (H2 _ (In_deletes _ _ O2 A2)). rewrite (name_of_ok _ _ _ _ N2), key_is_refl in H2. discriminate.
  - intros e k O A N. specialize (H3 _ (In_tree _ _ O)). rewrite A, (name_of_ok _ _ _ _ N) in H3. apply andb_prop in H3 as [H3 H4]. rewrite forallb_forall in H4.
    split; [destruct (on_server w i (fst k) (snd k)); discriminate|].
    intros (e2 & O2 & A2 & N2). specialize (H4 _ (In_deletes _ _ O2 A2)). rewrite (name_of_ok _ _ _ _ N2), key_is_refl in H4. discriminate.
Qed.
