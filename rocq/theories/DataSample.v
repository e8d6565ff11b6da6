(** * DataSample: every adapter has entries; worlds for the examples of PropData. *)
From Verif Require Import DataSpec DifferLast DataFacts DataOrder.
From Verif Require Export Samples.

Definition bucket_entries (h : list obj) (m : string) (b : dict ref) : list entry :=
  flat_map (fun ur : string * ref => match nth_error h (snd ur) with Some o => [(m, fst ur, o) : entry] | None => [] end) b.
Definition local_entries (h : list obj) (d : dict (dict ref)) : list entry :=
  flat_map (fun tb : string * dict ref => bucket_entries h (fst tb) (snd tb)) d.
Lemma bucket_typed h m b e : In e (bucket_entries h m b) -> fst (fst e) = m.
Proof.
  intros I. apply in_flat_map in I as ([u r] & _ & J). cbn [fst snd] in J. destruct (nth_error h r); [|destruct J]. destruct J as [<-|[]]. reflexivity.
Qed.
Lemma bucket_match h m b : (forall u r, In (u, r) b -> r < length h) ->
  Forall2 (fun (ur : string * ref) (e : entry) => fst ur = snd (fst e) /\ nth_error h (snd ur) = Some (snd e)) b (bucket_entries h m b).
Proof.
  intros V. unfold bucket_entries. induction b as [|[u r] b IH]; [constructor|]. cbn [flat_map fst snd].
  destruct (nth_error h r) as [o|] eqn:E.
  - constructor; [now split|]. apply IH. intros u' r' I. apply (V u' r'). now right.
  - apply nth_error_None in E. specialize (V u r (or_introl eq_refl)). lia.
Qed.
Lemma local_has w a ad d : w_ok w -> nth_error (w_ads w) a = Some ad -> ad_store ad = SLocal d -> NoDup (dkeys d) ->
  has_entries w a ad (local_entries (w_heap w) d).
Proof.
  intros OK A ST ND. split; [exact A|]. rewrite ST. intros t.
  assert (V : forall m b u r, In (m, b) d -> In (u, r) b -> r < length (w_heap w)) by (intros m b u r I J; eapply OK; eauto).
  clear OK A ST. unfold local_entries. induction d as [|[m b] d IH]; [constructor|]. simpl in ND. inversion ND as [|? ? N1 N2]; subst.
  cbn [flat_map fst snd]. rewrite filter_app. unfold bucket. cbn [dget].
  destruct (String.eqb_spec t m) as [->|NE].
  - rewrite filter_all, filter_none, app_nil_r.
    + apply bucket_match. intros u r I. apply (V m b u r); [now left|exact I].
    + intros e I. apply in_flat_map in I as ([m' b'] & I & J). apply bucket_typed in J. simpl in J. unfold of_type. rewrite J.
      apply String.eqb_neq. intros <-. apply N1. apply in_map_iff. exists (m, b'). auto.
    + intros e I. apply bucket_typed in I. unfold of_type. rewrite I. apply String.eqb_refl.
  - rewrite filter_none; [apply IH; [exact N2|]; intros m' b' u r I J; apply (V m' b' u r); [now right|exact J]|].
    intros e I. apply bucket_typed in I. unfold of_type. rewrite I. now apply String.eqb_neq.
Qed.
Lemma redis_has w a ad i reg : nth_error (w_ads w) a = Some ad -> ad_store ad = SRedis i -> plain i = true -> server_holds w reg ->
  has_entries w a ad (map (fun e : rkey * obj => (snd (fst (fst e)), snd (fst e), snd e)) (rstore reg i)).
Proof.
  intros A ST P H. split; [exact A|]. rewrite ST. split; [exact P|]. exists reg. split; [exact H|]. rewrite map_map.
  unfold rstore. clear H. induction reg as [|[[[i' t] u] o] reg IH]; [reflexivity|]. simpl. destruct (String.eqb_spec i i') as [<-|N]; [|exact IH].
  simpl. f_equal. exact IH.
Qed.

(** The source of [w0] on a Redis server, next to another store *)
Definition reg1 : rreg :=
  ("x", "site", "rome", snapshot (mk_site "rome" "it" [] 0 0)) ::
  map (fun e : entry => ("s", fst (fst e), snd (fst e), snapshot (snd e))) (local_entries heap0 src_data).
Definition w_mixed : world :=
  mkWorld heap0 [mk_ad "src" (SRedis "s"); mk_ad "dst" (SLocal dst_data)]
          (map (fun e : rkey * obj => (redis_key (fst (fst (fst e))) (snd (fst (fst e))) (snd (fst e)), snd e)) reg1) [].
Definition l_src : list entry := local_entries heap0 src_data.
Definition l_dst : list entry := local_entries heap0 dst_data.
Definition l_src' : list entry := map (fun e : entry => (fst e, snapshot (snd e))) l_src.

Lemma nodupb l : (fix go (l : list string) := match l with [] => true | x :: l' => negb (smem x l') && go l' end) l = true -> NoDup l.
Proof.
  induction l as [|x l IH]; intros H; constructor; apply andb_prop in H as [A B]; [|now apply IH].
  intros I. apply smem_In in I. now rewrite I in A.
Qed.
Lemma w0_src : has_entries w0 0 (mk_ad "src" (SLocal src_data)) l_src.
Proof. apply (local_has w0 0 _ src_data); [exact w0_ok|reflexivity|reflexivity|]. now apply nodupb. Qed.
Lemma w0_dst : has_entries w0 1 (mk_ad "dst" (SLocal dst_data)) l_dst.
Proof. apply (local_has w0 1 _ dst_data); [exact w0_ok|reflexivity|reflexivity|]. now apply nodupb. Qed.
Lemma mixed_ok : w_ok w_mixed.
Proof. apply w_okb_ok. reflexivity. Qed.
Lemma mixed_dst : has_entries w_mixed 1 (mk_ad "dst" (SLocal dst_data)) l_dst.
Proof. apply (local_has w_mixed 1 _ dst_data); [exact mixed_ok|reflexivity|reflexivity|]. now apply nodupb. Qed.
Lemma mixed_server : server_holds w_mixed reg1.
Proof.
  split; [reflexivity|]. split.
  - vm_compute. repeat (constructor; [simpl; intuition discriminate|]). constructor.
  - vm_compute. repeat (constructor; [repeat split|]). constructor.
Qed.
Lemma mixed_src : has_entries w_mixed 0 (mk_ad "src" (SRedis "s")) l_src'.
Proof. exact (redis_has w_mixed 0 (mk_ad "src" (SRedis "s")) "s" reg1 eq_refl eq_refl eq_refl mixed_server). Qed.
Lemma mixed_same : Forall2 same_entry l_src l_src'.
Proof.
  unfold l_src'. induction l_src; constructor; [|assumption]. split; [reflexivity|]. apply agrees_sym, agrees_given.
Qed.
Lemma plain_typesb ad l : forallb plain (ad_top ad) && forallb (fun e : entry => forallb plain (dkeys (c_children (o_cls (snd e))))) l = true -> plain_types ad l.
Proof.
  rewrite andb_true_iff, !forallb_forall. intros [A B]. split; [exact A|]. intros e t f I J. specialize (B _ I). rewrite forallb_forall in B. apply B.
  apply in_map_iff. exists (t, f). auto.
Qed.

(** [w0] with its source filled in another order *)
Definition src_data2 : dict (dict ref) := [
  ("interface", [("r1__eth1", 4); ("r1__eth0", 3)]);
  ("site", [("sfo", 5); ("nyc", 0)]);
  ("device", [("r1", 1); ("r2", 2)])].
Definition heap2 : list obj := mk_site "nyc" "east" ["r2"; "r1"] 0 0 :: tl heap0.
Definition w_shuffled : world :=
  mkWorld heap2 [mk_ad "src" (SLocal src_data2); mk_ad "dst" (SLocal dst_data)] [] [].
Definition l_src2 : list entry := local_entries heap2 src_data2.
Lemma shuffled_ok : w_ok w_shuffled.
Proof. apply w_okb_ok. reflexivity. Qed.
Lemma shuffled_has : has_entries w_shuffled 0 (mk_ad "src" (SLocal src_data2)) l_src2.
Proof. apply (local_has w_shuffled 0 _ src_data2); [exact shuffled_ok|reflexivity|reflexivity|]. now apply nodupb. Qed.
Lemma shuffled_dst : has_entries w_shuffled 1 (mk_ad "dst" (SLocal dst_data)) l_dst.
Proof. apply (local_has w_shuffled 1 _ dst_data); [exact shuffled_ok|reflexivity|reflexivity|]. now apply nodupb. Qed.
Lemma own_keysb l : forallb (fun e : entry => match get_unique_id (snd e) with Ok u => String.eqb u (snd (fst e)) | Err _ => false end) l = true ->
  NoDup (map fst l) -> own_keys l.
Proof.
  rewrite forallb_forall. intros H N. split; [|exact N]. intros e I. specialize (H _ I). destruct (get_unique_id (snd e)) as [u|]; [|discriminate].
  apply String.eqb_eq in H. now subst.
Qed.
Lemma l_src_keys : own_keys l_src.
Proof. apply own_keysb; [reflexivity|]. vm_compute. repeat (constructor; [simpl; intuition discriminate|]). constructor. Qed.
Lemma l_dst_keys : own_keys l_dst.
Proof. apply own_keysb; [reflexivity|]. vm_compute. repeat (constructor; [simpl; intuition discriminate|]). constructor. Qed.
Lemma src_shuffled : shuffled l_src l_src2.
Proof.
  exists (map (fun i => nth i l_src ("", "", mk_site "" "" [] 0 0)) [5; 4; 1; 0; 2; 3]). split.
  - apply NoDup_Permutation_bis.
    + apply NoDup_map_inv with (f := fst). apply l_src_keys.
    + simpl. lia.
    + intros e I. vm_compute in I |- *. intuition.
  - repeat (apply Forall2_cons; [split; [reflexivity|]|]); [..|apply Forall2_nil]; try apply near_refl.
    split; [reflexivity|]. split; [reflexivity|]. split; [repeat constructor|].
    intros f. simpl. destruct (String.eqb f "devices"); [|exact I]. apply perm_swap.
Qed.
Lemma same_shuffled l : shuffled l l.
Proof. exists l. split; [reflexivity|]. induction l; constructor; [|assumption]. split; [reflexivity|apply near_refl]. Qed.

(** Three adapters: [mid] tells them apart by an IGNORE flag or other values *)
Definition w_three (x y z : val) (fl : N) (tops : list string) : world :=
  let site v f a := mkObj c_site [("name", VStr "nyc"); ("region", v); ("note", VNone)] [("devices", ["r1"])] f (Some a) StSuccess "" in
  mkWorld [site x 0%N 0; mk_device "r1" "edge" [] 0 0; site y fl 1; mk_device "r1" "edge" [] 0 1; site z 0%N 2; mk_device "r1" "edge" [] 0 2]
    [mk_ad "a" (SLocal [("site", [("nyc", 0)]); ("device", [("r1", 1)])]);
     mkAdapter "b" "Sample" tops s_classes (SLocal [("site", [("nyc", 2)]); ("device", [("r1", 3)])]);
     mk_ad "c" (SLocal [("site", [("nyc", 4)]); ("device", [("r1", 5)])])] [] [].
