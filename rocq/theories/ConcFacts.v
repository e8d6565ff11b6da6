(** * ConcFacts: the command programs compute what the model does, and keep to their store. *)
From Coq Require Import Lia.
From Verif Require Export ConcSpec RedisFacts.

(** ** A program running alone *)
Fixpoint solo {A} (d : dict obj) (p : cprog A) : dict obj * A :=
  match p with
  | Done x => (d, x)
  | CGet k f => solo d (f (dget d k))
  | CSet k o p => solo (dset d k o) p
  | CExists k f => solo d (f (match dget d k with Some _ => true | None => false end))
  | CDelete k p => solo (ddel d k) p
  | CScan pat f => solo d (f (filter (glob pat) (dkeys d)))
  end.
Lemma solo_then {A B} (p : cprog A) (g : A -> cprog B) : forall d, solo d (cthen p g) = solo (fst (solo d p)) (g (snd (solo d p))).
Proof. induction p as [x|k f IH|k o p IH|k f IH|k p IH|pat f IH]; intros d; cbn [cthen solo]; try apply IH. reflexivity. Qed.
Lemma solo_step {A} d (p : cprog A) d' p' : cstep (d, p) (d', p') -> solo d p = solo d' p'.
Proof. intros H. inversion H; subst; reflexivity. Qed.
Lemma solo_runs {A} (s s' : dict obj * cprog A) : many cstep s s' -> solo (fst s) (snd s) = solo (fst s') (snd s').
Proof. induction 1 as [|[d p] [d1 p1] s'' H _ IH]; [reflexivity|]. cbn [fst snd] in *. rewrite <- IH. now apply solo_step. Qed.
Lemma solo_is {A} (p : cprog A) : forall d, many cstep (d, p) (fst (solo d p), Done (snd (solo d p))).
Proof.
  induction p as [x|k f IH|k o p IH|k f IH|k p IH|pat f IH]; intros d; cbn [solo]; [apply many_none| | | | |]; (eapply many_more; [constructor|apply IH]).
Qed.

(** ** Commands and model *)
Definition sim {A} (m : M world A) (c : CM A) : Prop := forall w d, w_redis w = [] ->
  solo d (c w) = (w_redis (fst (m (set_redis w d))), (set_redis (fst (m (set_redis w d))) [], snd (m (set_redis w d)))).
Lemma redis_eta w : set_redis w (w_redis w) = w.
Proof. now destruct w. Qed.
Lemma redis_twice w d e : set_redis (set_redis w d) e = set_redis w e.
Proof. now destruct w. Qed.
Lemma redis_back w d : w_redis (set_redis w d) = d.
Proof. reflexivity. Qed.
Lemma redis_empty w : w_redis w = [] -> set_redis w [] = w.
Proof. intros E. rewrite <- E. apply redis_eta. Qed.
Lemma redis_none w d : w_redis w = [] -> set_redis (set_redis w d) [] = w.
Proof. intros E. rewrite redis_twice, <- E. apply redis_eta. Qed.
(** computations that do not look at the server *)
Definition blind {A} (m : M world A) : Prop := forall w d, m (set_redis w d) = (set_redis (fst (m w)) d, snd (m w)).
Lemma blind_none {A} (m : M world A) w : blind m -> w_redis w = [] -> set_redis (fst (m w)) [] = fst (m w).
Proof. intros B E. pose proof (B w []) as H. replace (set_redis w []) with w in H by (rewrite <- E; symmetry; apply redis_eta). rewrite H at 2. reflexivity. Qed.
Lemma sim_here {A} (m : M world A) : blind m -> sim m (here m).
Proof. intros B w d E. unfold here. cbn [solo]. rewrite (B w d). cbn [fst snd]. rewrite redis_back, redis_twice, (blind_none m w B E). now destruct (m w). Qed.
Lemma sim_bind {A B} (m : M world A) (k : A -> M world B) c ck : sim m c -> (forall x, sim (k x) (ck x)) -> sim (bind m k) (cbind c ck).
Proof.
  intros H K w d E. unfold cbind. rewrite solo_then, (H w d E). cbn [fst snd]. unfold bind. destruct (m (set_redis w d)) as [w1 [x|e]]; cbn [fst snd]; [|reflexivity].
  rewrite (K x (set_redis w1 []) (w_redis w1) eq_refl), redis_twice, redis_eta. reflexivity.
Qed.
Lemma sim_try {A} (m : M world A) p h c ch : sim m c -> (forall e, sim (h e) (ch e)) -> sim (try_catch m p h) (ctry c p ch).
Proof.
  intros H K w d E. unfold ctry. rewrite solo_then, (H w d E). cbn [fst snd]. unfold try_catch. destruct (m (set_redis w d)) as [w1 [x|e]]; cbn [fst snd]; [reflexivity|].
  destruct (p e); [|reflexivity]. rewrite (K e (set_redis w1 []) (w_redis w1) eq_refl), redis_twice, redis_eta. reflexivity.
Qed.
Lemma blind_ret {A} (x : A) : blind (ret x). Proof. intros w d. reflexivity. Qed.
Lemma blind_raise {A} e : blind (@raise world A e). Proof. intros w d. reflexivity. Qed.
Lemma blind_lift {A} (x : result A) : blind (@lift world A x). Proof. intros w d. reflexivity. Qed.
Lemma blind_bind {A B} (m : M world A) (k : A -> M world B) : blind m -> (forall x, blind (k x)) -> blind (bind m k).
Proof. intros H K w d. unfold bind. rewrite (H w d). destruct (m w) as [w1 [x|e]]; cbn [fst snd]; [apply K|reflexivity]. Qed.
Lemma blind_hget r : blind (hget r).
Proof. intros w d. unfold hget. cbn. now destruct (nth_error (w_heap w) r). Qed.
Lemma blind_adapter a : blind (get_adapter a).
Proof. intros w d. unfold get_adapter. cbn. now destruct (nth_error (w_ads w) a). Qed.
Lemma blind_hset r o : blind (hset r o). Proof. intros w d. reflexivity. Qed.
Lemma blind_halloc o : blind (halloc o). Proof. intros w d. reflexivity. Qed.
Lemma blind_put a s : blind (put_store a s).
Proof. intros w d. unfold put_store, modify. cbn. now destruct (nth_error (w_ads w) a). Qed.
Lemma blind_emit e : blind (emit e). Proof. intros w d. reflexivity. Qed.
Lemma blind_mutate r f : blind (mutate r f).
Proof. apply blind_bind; [apply blind_hget|]. intros o. apply blind_bind; [apply blind_hset|]. intros _. apply blind_lift. Qed.
Lemma sim_for {A} (l : list A) f cf : (forall x, sim (f x) (cf x)) -> sim (forM l f) (cforM l cf).
Proof. intros H. induction l as [|x l IH]; cbn [forM cforM]; [apply sim_here, blind_ret|]. apply sim_bind; [apply H|]. now intros _. Qed.
Lemma sim_map {A B} (f : A -> M world B) cf l : (forall x, sim (f x) (cf x)) -> sim (mapM f l) (cmapM cf l).
Proof.
  intros H. induction l as [|x l IH]; cbn [mapM cmapM]; [apply sim_here, blind_ret|]. apply sim_bind; [apply H|]. intros y. apply sim_bind; [exact IH|]. intros ys. apply sim_here, blind_ret.
Qed.
(** reading the server *)
Lemma sim_skip {A} (m : M world A) c : sim m c -> sim (bind get_state (fun _ => m)) c.
Proof. intros H w d E. unfold bind, get_state. now apply H. Qed.
Lemma sim_cget {A} k (f : option obj -> M world A) cf : (forall x, sim (f x) (cf x)) -> sim (bind get_state (fun w => f (dget (w_redis w) k))) (cbind (cget k) cf).
Proof. intros H w d E. unfold cbind, cget. cbn [cthen solo fst snd]. rewrite (H _ w d E). reflexivity. Qed.
Lemma sim_cscan {A} pat (f : list string -> M world A) cf : (forall x, sim (f x) (cf x)) -> sim (bind get_state (fun w => f (scan w pat))) (cbind (cscan pat) cf).
Proof. intros H w d E. unfold cbind, cscan. cbn [cthen solo fst snd]. rewrite (H _ w d E). reflexivity. Qed.
Lemma sim_count_all {A} a (f : nat -> M world A) cf : (forall x, sim (f x) (cf x)) -> sim (bind get_state (fun w => f (count_all w a))) (cbind (c_count_all a) cf).
Proof.
  intros H w d E. unfold cbind, c_count_all. unfold bind, get_state, count_all. cbn [w_ads set_redis]. destruct (nth_error (w_ads w) a) as [ad|]; [|cbn [cthen solo fst snd]; now rewrite (H _ w d E)].
  destruct (ad_store ad); cbn [cthen solo fst snd]; now rewrite (H _ w d E).
Qed.
Lemma sim_truthy {A} x (f : bool -> M world A) cf : (forall x, sim (f x) (cf x)) -> sim (bind get_state (fun w => f (adapter_truthy w x))) (cbind (c_truthy x) cf).
Proof.
  intros H. destruct x as [b|]; cbn [c_truthy adapter_truthy].
  - pose proof (sim_count_all b (fun n => f (negb (Nat.eqb n 0))) (fun n => cf (negb (Nat.eqb n 0))) (fun n => H _)) as X. intros w d E. rewrite <- (X w d E). clear. unfold cbind, here.
    generalize (c_count_all b w). intros p. rewrite !solo_then. destruct (snd (solo d p)) as [w1 [n|e]]; cbn [fst snd solo]; reflexivity.
  - intros w d E. unfold cbind, here, bind, get_state. cbn [cthen solo fst snd ret]. now rewrite (H false w d E).
Qed.
Lemma sim_ext {A} (m m' : M world A) c : (forall w, m w = m' w) -> sim m c -> sim m' c.
Proof. intros H S w d E. rewrite (S w d E). now rewrite !H. Qed.
Lemma sim_load a k : sim (redis_load a k) (c_load a k).
Proof.
  apply (sim_ext (bind get_state (fun w => match dget (w_redis w) k with Some o => halloc (set_o_adapter o (Some a)) | None => raise ObjectNotFound end))).
  { intros w. unfold bind, get_state, redis_load. now destruct (dget (w_redis w) k). }
  apply (sim_cget k (fun x => match x with Some o => halloc (set_o_adapter o (Some a)) | None => raise ObjectNotFound end)).
  intros [o|]; apply sim_here; [apply blind_halloc|apply blind_raise].
Qed.
Lemma sim_put k o : sim (redis_put k o) (c_put k o).
Proof. intros w d E. unfold c_put, cset, redis_put, modify. cbn [solo fst snd]. rewrite !redis_twice, !redis_back. now rewrite (redis_empty w E). Qed.
Lemma sim_delete k : sim (modify (fun w => set_redis w (ddel (w_redis w) k))) (cdelete k).
Proof. intros w d E. unfold cdelete, modify. cbn [solo fst snd]. rewrite !redis_twice, !redis_back. now rewrite (redis_empty w E). Qed.
Lemma sim_exists k (m : M world unit) c (m' : M world unit) c' : sim m c -> sim m' c' ->
  sim (bind get_state (fun w => match dget (w_redis w) k with None => m' | Some _ => m end)) (cbind (cexists k) (fun b => if b then c else c')).
Proof. intros H H' w d E. unfold cbind, cexists, bind, get_state. cbn [cthen solo fst snd]. rewrite redis_back. destruct (dget d k); [now apply H|now apply H']. Qed.

Ltac blind_tac := repeat match goal with
  | |- blind (bind _ _) => apply blind_bind; [|intros ?]
  | |- blind (ret _) => apply blind_ret
  | |- blind (raise _) => apply blind_raise
  | |- blind (lift _) => apply blind_lift
  | |- blind (hget _) => apply blind_hget
  | |- blind (hset _ _) => apply blind_hset
  | |- blind (halloc _) => apply blind_halloc
  | |- blind (get_adapter _) => apply blind_adapter
  | |- blind (put_store _ _) => apply blind_put
  | |- blind (mutate _ _) => apply blind_mutate
  | |- blind (emit _) => apply blind_emit
  | |- blind (match ?x with _ => _ end) => destruct x
  end.
Ltac sim1 := apply sim_bind; [apply sim_here; blind_tac|intros ?].

Lemma sim_names a : sim (st_get_all_model_names a) (c_get_all_model_names a).
Proof.
  unfold st_get_all_model_names, c_get_all_model_names. sim1. destruct (ad_store x) as [s|sid]; [apply sim_skip, sim_here; blind_tac|].
  apply (sim_cscan _ (fun l => ret (sdedup (map model_name_of_key l)))). intros l. apply sim_here. blind_tac.
Qed.
Lemma sim_get a m i : sim (st_get a m i) (c_get a m i).
Proof.
  unfold st_get, c_get. sim1. cbv zeta. sim1. destruct (ad_store x) as [s|sid]; [apply sim_here; blind_tac|]. apply sim_load.
Qed.
Lemma sim_get_all a m : sim (st_get_all a m) (c_get_all a m).
Proof.
  unfold st_get_all, c_get_all. sim1. destruct (ad_store x) as [s|sid]; [apply sim_here; blind_tac|].
  apply (sim_cscan _ (fun l => mapM (redis_load a) l)). intros l. apply sim_map. intros k. apply sim_load.
Qed.
Lemma sim_by_uids a us m : sim (st_get_by_uids a us m) (c_get_by_uids a us m).
Proof. apply sim_map. intros u. sim1. destruct (ad_store x) as [s|sid]; [apply sim_here; blind_tac|]. apply sim_load. Qed.
Lemma sim_total a : sim (bind get_state (fun w => ret (count_all w a))) (c_count_all a).
Proof.
  intros w d E. rewrite <- (sim_count_all a (fun n => ret n) (fun n => here (ret n)) (fun n => sim_here _ (blind_ret n)) w d E). unfold cbind. rewrite solo_then.
  destruct (solo d (c_count_all a w)) as [d' [w1 [n|e]]]; reflexivity.
Qed.
Lemma sim_count a m : sim (st_count a m) (c_count a m).
Proof.
  unfold st_count, c_count. sim1. destruct (ad_store x) as [s|sid].
  - destruct m as [[n|c]|]; [destruct n as [|b n]; [apply sim_total|]|apply sim_skip, sim_here; blind_tac|apply sim_total]. apply sim_skip, sim_here. blind_tac.
  - destruct m as [m'|]; [|apply sim_total]. apply (sim_cscan _ (fun l => ret (length l))). intros l. apply sim_here. blind_tac.
Qed.
Lemma sim_add a r : sim (st_add a r) (c_add a r).
Proof.
  unfold st_add, c_add. sim1. sim1. cbv zeta. sim1. destruct (ad_store x1) as [s|sid].
  - sim1. destruct (dget (bucket s (get_type x)) x0) as [r'|]; [apply sim_here; blind_tac|].
    apply (sim_truthy (o_adapter x) (fun b => (if b then ret tt else hset r (set_o_adapter x (Some a))) ;;; put_store a _)). intros b. apply sim_bind; [destruct b; apply sim_here; blind_tac|]. intros _. apply sim_here. blind_tac.
  - apply (sim_cget _ (fun y => match y with Some existing => if dump_eq existing x then ret tt else raise ObjectAlreadyExists | None => redis_put _ x end)).
    intros [e|]; [apply sim_here; blind_tac|apply sim_put].
Qed.
Lemma sim_update a r : sim (st_update a r) (c_update a r).
Proof. unfold st_update, c_update. sim1. sim1. cbv zeta. sim1. destruct (ad_store x1) as [s|sid]; [apply sim_here; blind_tac|apply sim_put]. Qed.
Lemma sim_remove_item a t u : sim (st_remove_item a t u) (c_remove_item a t u).
Proof.
  unfold st_remove_item, c_remove_item. sim1. destruct (ad_store x) as [s|sid]; [apply sim_here; blind_tac|].
  apply sim_exists; [apply sim_delete|apply sim_here, blind_raise].
Qed.
Lemma sim_clear r : sim (clear_adapter r) (c_clear_adapter r).
Proof. unfold clear_adapter, c_clear_adapter. sim1. apply (sim_truthy (o_adapter x) (fun b => if b then hset r (set_o_adapter x None) else ret tt)). intros []; apply sim_here; blind_tac. Qed.
Lemma sim_remove fuel a rc : forall r, sim (st_remove fuel a r rc) (c_remove fuel a r rc).
Proof.
  induction fuel as [|fuel IH]; intros r; cbn [st_remove c_remove]; [apply sim_here, blind_raise|]. sim1. sim1.
  apply sim_bind; [apply sim_remove_item|]. intros _. apply sim_bind; [apply sim_clear|]. intros _. destruct rc; [|apply sim_here, blind_ret].
  apply sim_for. intros tf. sim1. apply sim_for. intros u. apply sim_try; [|intros e; apply sim_here, blind_emit]. apply sim_bind; [apply sim_get|]. intros c. apply IH.
Qed.
Lemma sim_goi a c ids attrs : sim (st_get_or_instantiate a c ids attrs) (c_get_or_instantiate a c ids attrs).
Proof.
  apply sim_try; [apply sim_bind; [apply sim_get|intros r; apply sim_here, blind_ret]|]. intros e. sim1. sim1. sim1. apply sim_bind; [apply sim_add|]. intros _. apply sim_here, blind_ret.
Qed.
Lemma sim_goa a r : sim (st_get_or_add_model_instance a r) (c_get_or_add_model_instance a r).
Proof.
  unfold st_get_or_add_model_instance, c_get_or_add_model_instance. sim1. sim1. apply sim_try; [apply sim_bind; [apply sim_get|intros r'; apply sim_here, blind_ret]|].
  intros e. apply sim_bind; [apply sim_add|]. intros _. apply sim_here, blind_ret.
Qed.
Lemma sim_uoi a c ids attrs : sim (st_update_or_instantiate a c ids attrs) (c_update_or_instantiate a c ids attrs).
Proof. apply sim_bind; [apply sim_goi|]. intros rb. sim1. apply sim_here, blind_ret. Qed.
Lemma bind_twice {A B} (m : M world A) (k : A -> A -> M world B) : (forall w, fst (m w) = w) -> forall w, bind m (fun x => bind m (k x)) w = bind m (fun x => k x x) w.
Proof. intros H w. unfold bind. specialize (H w). destruct (m w) as [w' [x|e]] eqn:E; cbn in H; subst w'; [rewrite E|]; reflexivity. Qed.
Lemma sim_uoa a r : sim (st_update_or_add_model_instance a r) (c_update_or_add_model_instance a r).
Proof.
  apply (sim_ext (o <- hget r ;; rb <- st_get_or_add_model_instance a r ;; mutate (fst rb) (fun o' => setattrs o' (get_attrs o)) ;;; ret rb)).
  - intros w. unfold st_update_or_add_model_instance, st_get_or_add_model_instance, bind, hget, lift. destruct (nth_error (w_heap w) r) as [o|] eqn:N; [|reflexivity]. rewrite N. destruct (get_unique_id o) as [u|e]; reflexivity.
  - sim1. apply sim_bind; [apply sim_goa|]. intros rb. sim1. apply sim_here, blind_ret.
Qed.
Lemma sim_gon a m i : sim (ad_get_or_none a m i) (c_get_or_none a m i).
Proof. apply sim_try; [apply sim_bind; [apply sim_get|intros r; apply sim_here, blind_ret]|intros e; apply sim_here, blind_ret]. Qed.
Lemma sim_fmap {A B} (f : A -> B) m c : sim m c -> sim (mfmap f m) (cfmap f c).
Proof. intros H. apply sim_bind; [exact H|]. intros x. apply sim_here, blind_ret. Qed.
