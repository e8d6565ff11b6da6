(** * PropIndep: adapters that share nothing never come to share anything (C102).

    [deed], [who], [do_deeds], [strangers] are defined in IndepSpec.v; [share_nothing] and [intact] in SyncSpec.v. *)
From Verif Require Import IndepFacts SyncSample.

(** C102.  Adapters that share no object and no Redis key share none after any sequence of additions,
    updates, edits, removals, comparisons and synchronisations, however each of them ends and whatever
    the hooks do; and no store refers to an object that does not exist. *)
Theorem C102_strangers : forall l w, w_ok w -> strangers w -> w_ok (do_deeds l w) /\ strangers (do_deeds l w).
Proof. intros l w OK ST. destruct (deeds_all l w OK ST) as (H1 & H2 & _). now split. Qed.
Print Assumptions C102_strangers.

(** So an adapter to which none of this is done is as it was, however often it served as a source. *)
Theorem C102_intact : forall l w a, w_ok w -> strangers w -> Forall (fun x => a <> who x) l -> intact w (do_deeds l w) a.
Proof. intros l w a OK ST. now apply deeds_all. Qed.
Print Assumptions C102_intact.

(** And what an adapter holds afterwards it held before, or it is an object that did not exist: a
    synchronisation copies, it never takes over an object of the source. *)
Theorem C102_new : forall x w r, holds (do_one x w) (who x) r -> holds w (who x) r \/ length (w_heap w) <= r.
Proof. exact deed_new. Qed.
Print Assumptions C102_new.

(** two LocalStores and a RedisStore *)
Definition w_three : world :=
  mkWorld heap0 (w_ads w0 ++ [mk_ad "other" (SRedis "s")]) [(redis_key "s" "site" "nyc", mk_site "nyc" "north" [] 0 2)] [].
Lemma w_three_strangers : strangers w_three.
Proof.
  intros a b N. split.
  - intros r (ad & d & t & u & [E1 E2] & I) (ad' & d' & t' & u' & [E1' E2'] & I').
    destruct a as [|[|[|a]]]; [| | |destruct a; discriminate E1]; destruct b as [|[|[|b]]]; try (now elim N); try (destruct b; discriminate E1');
      injection E1 as <-; injection E1' as <-; try discriminate E2; try discriminate E2'.
    + refine (proj1 w0_share r _ _); [exists (mk_ad "src" (SLocal src_data)), d, t, u|exists (mk_ad "dst" (SLocal dst_data)), d', t', u']; repeat split; auto.
    + refine (proj1 w0_share r _ _); [exists (mk_ad "src" (SLocal src_data)), d', t', u'|exists (mk_ad "dst" (SLocal dst_data)), d, t, u]; repeat split; auto.
  - intros i j (ad & E1 & E2) (ad' & E1' & E2').
    destruct a as [|[|[|a]]]; [| | |destruct a; discriminate E1]; destruct b as [|[|[|b]]]; try (now elim N); try (destruct b; discriminate E1');
      injection E1 as <-; injection E1' as <-; try discriminate E2; try discriminate E2'.
Qed.

(** the destination is synchronised from the source, a site is added to it, the RedisStore is synchronised
    from it, an object of the destination is edited and one is removed *)
Definition history : list deed :=
  [DoSync 20 default_hooks 1 0 base_class 0 true None; DoAdd 1 (set_o_adapter (mk_site "lon" "uk" [] 0 0) None);
   DoSync 20 default_hooks 2 1 base_class 0 true None; DoEdit 1 "site" "nyc" (mk_site "nyc" "south" [] 0 1); DoRemove 20 1 "site" "sfo" true].
Example C102_example : w_ok w_three /\ strangers w_three /\ Forall (fun x => 0 <> who x) history /\
  let w' := do_deeds history w_three in
  (* the site in the source, in the destination, and on the server *)
  lookup w' 0 "site" "nyc" = Some 0 /\ lookup w' 1 "site" "nyc" = Some 6 /\
  option_map o_vals (nth_error (w_heap w') 0) = Some [("name", VStr "nyc"); ("region", VStr "east"); ("note", VNone)] /\
  option_map o_vals (nth_error (w_heap w') 6) = Some [("name", VStr "nyc"); ("region", VStr "south"); ("note", VNone)] /\
  dget (w_redis w') (redis_key "s" "site" "lon") <> None /\
  lookup w' 1 "site" "sfo" = None /\ lookup w' 0 "site" "sfo" <> None.
Proof.
  split; [apply w_okb_ok; reflexivity|]. split; [exact w_three_strangers|]. split; [repeat constructor; discriminate|].
  vm_compute. repeat split; discriminate.
Qed.
Print Assumptions C102_example.

(** Not claimed for a program that adds an object of one adapter to another: from then on a synchronisation
    of the one changes the other. *)
Theorem C102_given_refuted : ~ (forall r a b w x c, w_ok w -> strangers w -> holds w a r -> who x = a -> c = b -> b <> a ->
  intact (fst (st_add b r w)) (do_one x (fst (st_add b r w))) c).
Proof.
  intros H.
  set (w := mkWorld heap0 [mk_ad "src" (SLocal src_data); mk_ad "dst" (SLocal dst_data); mk_ad "third" (SLocal [])] [] []).
  assert (ST : strangers w).
  { intros a b N. split.
    - intros r (ad & d & t & u & [E1 E2] & I) (ad' & d' & t' & u' & [E1' E2'] & I').
      destruct a as [|[|[|a]]]; [| | |destruct a; discriminate E1]; destruct b as [|[|[|b]]]; try (now elim N); try (destruct b; discriminate E1');
        injection E1 as <-; injection E1' as <-; injection E2 as <-; injection E2' as <-; try (now destruct I); try (now destruct I').
      + refine (proj1 w0_share r _ _); [exists (mk_ad "src" (SLocal src_data)), src_data, t, u|exists (mk_ad "dst" (SLocal dst_data)), dst_data, t', u']; repeat split; auto.
      + refine (proj1 w0_share r _ _); [exists (mk_ad "src" (SLocal src_data)), src_data, t', u'|exists (mk_ad "dst" (SLocal dst_data)), dst_data, t, u]; repeat split; auto.
    - intros i j (ad & E1 & E2). destruct a as [|[|[|a]]]; [| | |destruct a; discriminate E1]; injection E1 as <-; discriminate E2. }
  assert (W : w_ok w) by (apply w_okb_ok; reflexivity).
  assert (HO : holds w 1 7) by (apply (holds_lookup w 1 "device" "r1"); reflexivity).
  destruct (H 7 1 2 w (DoSync 20 default_hooks 1 0 base_class 0 true None) 2 W ST HO eq_refl eq_refl ltac:(discriminate)) as (_ & X & _).
  assert (Q : lookup (fst (st_add 2 7 w)) 2 "device" "r1" = Some 7) by reflexivity.
  specialize (X _ _ _ Q). vm_compute in X. discriminate X.
Qed.
Print Assumptions C102_given_refuted.
