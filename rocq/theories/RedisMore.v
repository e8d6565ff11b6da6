(** * RedisMore: what RedisStore does not write back (C30) *)
From Verif Require Export RedisFacts.
From Verif Require Import BaseFacts ModelFacts StoreMore.
From Coq Require Import Lia.

Lemma mutate_redis r f w : w_redis (fst (mutate r f w)) = w_redis w.
Proof.
  unfold mutate, bind, hget. destruct (nth_error (w_heap w) r) as [o|]; [|reflexivity].
  unfold hset, modify, lift. now destruct (snd (f o)).
Qed.
Lemma uoi_redis a c ids attrs w u o : has_redis w a -> create_unique_id c ids = Ok u ->
  stored w a (c_modelname c) u = Some o ->
  w_redis (fst (st_update_or_instantiate a c ids attrs w)) = w_redis w.
Proof.
  intros (ad & i & HA & HS) U D. unfold stored, store_id in D. rewrite HA, HS in D.
  unfold st_update_or_instantiate, bind at 1, try_catch, bind at 1, st_get, bind at 1, get_adapter. rewrite HA. cbn [fst snd object_class_and_model].
  unfold bind at 1, lift. unfold get_uid. rewrite U, HS. unfold redis_load at 1. rewrite D. unfold halloc, ret at 1.
  cbn [fst]. unfold bind at 1. set (w1 := set_heap w _).
  pose proof (mutate_redis (length (w_heap w)) (fun o => update_changed o attrs) w1) as M.
  destruct (mutate (length (w_heap w)) (fun o => update_changed o attrs) w1) as [w2 [x|e]]; exact M.
Qed.
Lemma uoa_redis a r w q u o : has_redis w a -> nth_error (w_heap w) r = Some q -> get_unique_id q = Ok u ->
  stored w a (get_type q) u = Some o ->
  w_redis (fst (st_update_or_add_model_instance a r w)) = w_redis w.
Proof.
  intros (ad & i & HA & HS) H U D. unfold stored, store_id in D. rewrite HA, HS in D.
  unfold st_update_or_add_model_instance, bind at 1, hget. rewrite H. unfold bind at 1, lift. rewrite U.
  unfold bind at 1, try_catch, bind at 1, st_get, bind at 1, get_adapter. rewrite HA.
  unfold bind at 1, lift. cbn [get_uid fst snd object_class_and_model]. rewrite HS. unfold redis_load at 1. rewrite D. unfold halloc, ret at 1.
  cbn [fst]. unfold bind at 1. set (w1 := set_heap w _).
  pose proof (mutate_redis (length (w_heap w)) (fun o' => setattrs o' (get_attrs q)) w1) as M.
  destruct (mutate (length (w_heap w)) (fun o' => setattrs o' (get_attrs q)) w1) as [w2 [x|e]]; exact M.
Qed.

(** on a LocalStore the object read back has the new values *)
Lemma set_reads w w' a t u r attrs : attrs_set w w' r attrs -> lookup w a t u = Some r ->
  exists o, lookup w' a t u = Some r /\ nth_error (w_heap w') r = Some o /\
    forall k v, dget attrs k = Some v -> exists v', dget (o_vals o) k = Some v' /\ (v' = v \/ py_eq v' v = true).
Proof.
  intros (o & vals & H & -> & K & Same & Set') L. exists (set_o_vals o vals). split; [exact L|]. split.
  - cbn [w_heap set_heap]. assert (r < length (w_heap w)) as B by (apply nth_error_Some; congruence).
    revert B. generalize (w_heap w). clear. induction r as [|r IH]; intros [|x l] B; simpl in *; try lia; [reflexivity|].
    apply IH. lia.
  - exact Set'.
Qed.
Lemma local_durable a w r u stored : nth_error (w_heap w) r = Some stored ->
  (forall c ids attrs, create_unique_id c ids = Ok u -> lookup w a (c_modelname c) u = Some r ->
     NoDup (dkeys attrs) -> incl (dkeys attrs) (dkeys (o_vals stored)) ->
     exists w' o, st_update_or_instantiate a c ids attrs w = (w', Ok (r, false)) /\
       lookup w' a (c_modelname c) u = Some r /\ nth_error (w_heap w') r = Some o /\
       forall k v, dget attrs k = Some v -> exists v', dget (o_vals o) k = Some v' /\ (v' = v \/ py_eq v' v = true)) /\
  (forall q o0, nth_error (w_heap w) q = Some o0 -> get_unique_id o0 = Ok u -> lookup w a (get_type o0) u = Some r ->
     NoDup (dkeys (o_vals o0)) -> incl (dkeys (get_attrs o0)) (dkeys (o_vals stored)) ->
     exists w' o, st_update_or_add_model_instance a q w = (w', Ok (r, false)) /\
       lookup w' a (get_type o0) u = Some r /\ nth_error (w_heap w') r = Some o /\
       forall k v, dget (get_attrs o0) k = Some v -> exists v', dget (o_vals o) k = Some v' /\ (v' = v \/ py_eq v' v = true)).
Proof.
  intros H. destruct (update_or_present a w r u stored H) as [A B]. split.
  - intros c ids attrs U L N I. destruct (A c ids attrs U L N I) as (w' & E & S). exists w'.
    destruct (set_reads w w' a _ u r attrs S L) as (o & X & Y & Z). exists o. repeat split; assumption.
  - intros q o0 Q U L N I. destruct (B q o0 Q U L N I) as (w' & E & S). exists w'.
    destruct (set_reads w w' a _ u r _ S L) as (o & X & Y & Z). exists o. repeat split; assumption.
Qed.
