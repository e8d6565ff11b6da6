(** * CutFacts: calls that stop between two commands. *)
From Verif Require Export ConcTop.

(** ** Programs that only read, that write once, that only delete *)
Inductive silent {A} : cprog A -> Prop :=
| si_done x : silent (Done x)
| si_get k f : (forall x, silent (f x)) -> silent (CGet k f)
| si_exists k f : (forall x, silent (f x)) -> silent (CExists k f)
| si_scan pat f : (forall x, silent (f x)) -> silent (CScan pat f).
Inductive single {A} : cprog A -> Prop :=
| sg_done x : single (Done x)
| sg_get k f : (forall x, single (f x)) -> single (CGet k f)
| sg_exists k f : (forall x, single (f x)) -> single (CExists k f)
| sg_scan pat f : (forall x, single (f x)) -> single (CScan pat f)
| sg_set k o p : silent p -> single (CSet k o p)
| sg_delete k p : silent p -> single (CDelete k p).
Inductive deleting {A} : cprog A -> Prop :=
| dl_done x : deleting (Done x)
| dl_get k f : (forall x, deleting (f x)) -> deleting (CGet k f)
| dl_exists k f : (forall x, deleting (f x)) -> deleting (CExists k f)
| dl_scan pat f : (forall x, deleting (f x)) -> deleting (CScan pat f)
| dl_delete k p : deleting p -> deleting (CDelete k p).
Lemma silent_single {A} (p : cprog A) : silent p -> single p.
Proof. induction 1; now constructor. Qed.
Lemma silent_deleting {A} (p : cprog A) : silent p -> deleting p.
Proof. induction 1; now constructor. Qed.
Lemma silent_then {A B} (p : cprog A) (g : A -> cprog B) : silent p -> (forall x, silent (g x)) -> silent (cthen p g).
Proof. intros H G. induction H as [x|k f _ IH|k f _ IH|pat f _ IH]; cbn [cthen]; [apply G|now constructor..]. Qed.
Lemma single_before {A B} (p : cprog A) (g : A -> cprog B) : silent p -> (forall x, single (g x)) -> single (cthen p g).
Proof. intros H G. induction H as [x|k f _ IH|k f _ IH|pat f _ IH]; cbn [cthen]; [apply G|now constructor..]. Qed.
Lemma single_then {A B} (p : cprog A) (g : A -> cprog B) : single p -> (forall x, silent (g x)) -> single (cthen p g).
Proof.
  intros H G. induction H as [x|k f _ IH|k f _ IH|pat f _ IH|k o p H|k p H]; cbn [cthen]; [apply silent_single, G|now constructor..| |].
  - constructor. now apply silent_then.
  - constructor. now apply silent_then.
Qed.
Lemma deleting_then {A B} (p : cprog A) (g : A -> cprog B) : deleting p -> (forall x, deleting (g x)) -> deleting (cthen p g).
Proof. intros H G. induction H as [x|k f _ IH|k f _ IH|pat f _ IH|k p _ IH]; cbn [cthen]; [apply G|now constructor..]. Qed.

(** ** The states in between *)
Lemma many_inv {S} (R : S -> S -> Prop) s s' : many R s s' -> s' = s \/ exists s1, R s s1 /\ many R s1 s'.
Proof. intros H. inversion H as [|? s1 ? H1 H2]; subst; [now left|]. right. now exists s1. Qed.
Lemma silent_cut {A} (p : cprog A) : silent p -> forall d d1 q, many cstep (d, p) (d1, q) -> d1 = d /\ fst (solo d p) = d.
Proof.
  induction 1 as [x|k f _ IH|k f _ IH|pat f _ IH]; intros d d1 q H; (apply many_inv in H as [H|(s1 & H1 & H2)]; [injection H as -> ->|inversion H1; subst]);
    cbn [solo fst]; try (split; reflexivity); try (eapply IH; eassumption); (split; [reflexivity|]); refine (proj2 (IH _ d _ _ (many_none _ _))).
Qed.
Lemma single_cut {A} (p : cprog A) : single p -> forall d d1 q, many cstep (d, p) (d1, q) -> d1 = d \/ d1 = fst (solo d p).
Proof.
  induction 1 as [x|k f _ IH|k f _ IH|pat f _ IH|k o p H|k p H]; intros d d1 q R; (apply many_inv in R as [R|(s1 & H1 & H2)]; [injection R as -> ->; now left|inversion H1; subst]);
    cbn [solo fst]; try (eapply IH; eassumption).
  - right. apply (silent_cut _ H) in H2 as (-> & ->). reflexivity.
  - right. apply (silent_cut _ H) in H2 as (-> & ->). reflexivity.
Qed.
Lemma incl_ddel (d : dict obj) k : incl (ddel d k) d.
Proof.
  induction d as [|[k' v] d IH]; cbn [ddel]; [easy|]. destruct (String.eqb k k'); [intros y; now right|]. intros y [<-|I]; [now left|right; now apply IH].
Qed.
Lemma deleting_solo {A} (p : cprog A) : deleting p -> forall d, incl (fst (solo d p)) d.
Proof. induction 1 as [x|k f _ IH|k f _ IH|pat f _ IH|k p _ IH]; intros d; cbn [solo fst]; [apply incl_refl|apply IH..|]. eapply incl_tran; [apply IH|apply incl_ddel]. Qed.
Lemma deleting_cut {A} (p : cprog A) : deleting p -> forall d d1 q, many cstep (d, p) (d1, q) -> incl (fst (solo d p)) d1 /\ incl d1 d.
Proof.
  induction 1 as [x|k f D IH|k f D IH|pat f D IH|k p D IH]; intros d d1 q R; (apply many_inv in R as [R|(s1 & H1 & H2)]; [injection R as -> ->|inversion H1; subst]);
    cbn [solo fst]; try (eapply IH; eassumption); try (split; [|apply incl_refl]); try apply incl_refl; try apply deleting_solo, D.
  - eapply incl_tran; [now apply deleting_solo|apply incl_ddel].
  - apply IH in H2 as (U & V). split; [exact U|]. eapply incl_tran; [exact V|apply incl_ddel].
Qed.
Lemma then_cut {A B} (p : cprog A) (g : A -> cprog B) : forall d d1 q, many cstep (d, cthen p g) (d1, q) ->
  (exists q', many cstep (d, p) (d1, q')) \/ many cstep (fst (solo d p), g (snd (solo d p))) (d1, q).
Proof.
  induction p as [x|k f IH|k o p IH|k f IH|k p IH|pat f IH]; intros d d1 q R; cbn [cthen solo fst snd] in *; [now right| | | | |];
    (apply many_inv in R as [R|(s1 & H1 & H2)]; [injection R as -> ->; left; eexists; apply many_none|inversion H1; subst; apply IH in H2 as [(q' & H2)|H2]; [left; exists q'; eapply many_more; [constructor|exact H2]|now right]]).
Qed.

(** ** The calls *)
Definition cread {St A} (c : SM St A) : Prop := forall w, silent (c w).
Definition conce {St A} (c : SM St A) : Prop := forall w, single (c w).
Definition cdels {St A} (c : SM St A) : Prop := forall w, deleting (c w).
Lemma cread_here {St A} (m : M St A) : cread (here m).
Proof. intros w. constructor. Qed.
Lemma cread_bind {St A B} (m : SM St A) (k : A -> SM St B) : cread m -> (forall x, cread (k x)) -> cread (cbind m k).
Proof. intros H K w. apply silent_then; [apply H|]. intros [w1 [x|e]]; cbn [fst snd]; [apply K|constructor]. Qed.
Lemma cread_try {St A} (m : SM St A) p h : cread m -> (forall e, cread (h e)) -> cread (ctry m p h).
Proof. intros H K w. apply silent_then; [apply H|]. intros [w1 [x|e]]; cbn [fst snd]; [constructor|]. destruct (p e); [apply K|constructor]. Qed.
Lemma conce_read {St A} (m : SM St A) : cread m -> conce m.
Proof. intros H w. apply silent_single, H. Qed.
Lemma cdels_read {St A} (m : SM St A) : cread m -> cdels m.
Proof. intros H w. apply silent_deleting, H. Qed.
Lemma conce_bind {St A B} (m : SM St A) (k : A -> SM St B) : cread m -> (forall x, conce (k x)) -> conce (cbind m k).
Proof. intros H K w. apply single_before; [apply H|]. intros [w1 [x|e]]; cbn [fst snd]; [apply K|constructor]. Qed.
Lemma conce_then {St A B} (m : SM St A) (k : A -> SM St B) : conce m -> (forall x, cread (k x)) -> conce (cbind m k).
Proof. intros H K w. apply single_then; [apply H|]. intros [w1 [x|e]]; cbn [fst snd]; [apply K|constructor]. Qed.
Lemma conce_try {St A} (m : SM St A) p h : cread m -> (forall e, conce (h e)) -> conce (ctry m p h).
Proof. intros H K w. apply single_before; [apply H|]. intros [w1 [x|e]]; cbn [fst snd]; [constructor|]. destruct (p e); [apply K|constructor]. Qed.
Lemma cdels_bind {St A B} (m : SM St A) (k : A -> SM St B) : cdels m -> (forall x, cdels (k x)) -> cdels (cbind m k).
Proof. intros H K w. apply deleting_then; [apply H|]. intros [w1 [x|e]]; cbn [fst snd]; [apply K|constructor]. Qed.
Lemma cdels_try {St A} (m : SM St A) p h : cdels m -> (forall e, cdels (h e)) -> cdels (ctry m p h).
Proof. intros H K w. apply deleting_then; [apply H|]. intros [w1 [x|e]]; cbn [fst snd]; [constructor|]. destruct (p e); [apply K|constructor]. Qed.
Lemma cdels_for {St A} (l : list A) (f : A -> SM St unit) : (forall x, cdels (f x)) -> cdels (cforM l f).
Proof. intros H. induction l as [|x l IH]; cbn [cforM]; [apply cdels_read, cread_here|]. apply cdels_bind; [apply H|intros _; exact IH]. Qed.
Lemma cread_for {St A} (l : list A) (f : A -> SM St unit) : (forall x, cread (f x)) -> cread (cforM l f).
Proof. intros H. induction l as [|x l IH]; cbn [cforM]; [apply cread_here|]. apply cread_bind; [apply H|intros _; exact IH]. Qed.
Lemma cread_map {St A B} (f : A -> SM St B) l : (forall x, cread (f x)) -> cread (cmapM f l).
Proof. intros H. induction l as [|x l IH]; cbn [cmapM]; [apply cread_here|]. apply cread_bind; [apply H|intros y]. apply cread_bind; [exact IH|intros ys; apply cread_here]. Qed.
Ltac rd := repeat first
  [ apply cread_here | apply cread_bind; [|intros ?] | apply cread_try; [|intros ?] | apply cread_map; intros ? | apply cread_for; intros ?
  | (intros ?; progress unfold cget, cexists, cscan; do 2 constructor) | match goal with |- cread (match ?x with _ => _ end) => destruct x end ].
Lemma cread_load a k : cread (c_load a k).
Proof. unfold c_load. rd. Qed.
Lemma cread_names a : cread (c_get_all_model_names a).
Proof. unfold c_get_all_model_names. rd. Qed.
Lemma cread_get a m i : cread (c_get a m i).
Proof. unfold c_get. cbv zeta. rd; try apply cread_load. Qed.
Lemma cread_get_all a m : cread (c_get_all a m).
Proof. unfold c_get_all. rd; try apply cread_load. Qed.
Lemma cread_by_uids a us m : cread (c_get_by_uids a us m).
Proof. unfold c_get_by_uids. rd; try apply cread_load. Qed.
Lemma cread_count_all a : cread (c_count_all a).
Proof. intros w. unfold c_count_all. destruct (nth_error _ a) as [ad|]; [|constructor]. destruct (ad_store ad); repeat constructor. Qed.
Lemma cread_count a m : cread (c_count a m).
Proof. unfold c_count. rd; try apply cread_count_all. Qed.
Lemma cread_truthy x : cread (c_truthy x).
Proof. unfold c_truthy. rd; try apply cread_count_all. Qed.
Lemma cread_gon a m i : cread (c_get_or_none a m i).
Proof. unfold c_get_or_none. rd; try apply cread_get. Qed.
Lemma conce_put k o : conce (c_put k o).
Proof. intros w. repeat constructor. Qed.
Lemma conce_add a r : conce (c_add a r).
Proof.
  unfold c_add. cbv zeta. do 3 (apply conce_bind; [apply cread_here|intros ?]). destruct (ad_store _) as [d|sid].
  - apply conce_read. rd; try apply cread_truthy.
  - apply conce_bind; [rd|]. intros [y|]; [apply conce_read; rd|apply conce_put].
Qed.
Lemma conce_update a r : conce (c_update a r).
Proof. unfold c_update. cbv zeta. do 3 (apply conce_bind; [apply cread_here|intros ?]). destruct (ad_store _) as [d|sid]; [apply conce_read; rd|apply conce_put]. Qed.
Lemma conce_item a t u : conce (c_remove_item a t u).
Proof.
  unfold c_remove_item. apply conce_bind; [apply cread_here|]. intros ad. destruct (ad_store ad) as [d|sid]; [apply conce_read; rd|].
  apply conce_bind; [rd|]. intros [|]; [|apply conce_read; rd]. intros w. repeat constructor.
Qed.
Lemma cdels_item a t u : cdels (c_remove_item a t u).
Proof.
  unfold c_remove_item. apply cdels_bind; [apply cdels_read, cread_here|]. intros ad. destruct (ad_store ad) as [d|sid]; [apply cdels_read; rd|].
  apply cdels_bind; [apply cdels_read; rd|]. intros [|]; [|apply cdels_read; rd]. intros w. repeat constructor.
Qed.
Lemma cread_clear r : cread (c_clear_adapter r).
Proof. unfold c_clear_adapter. rd; try apply cread_truthy. Qed.
Lemma conce_remove fuel a r : conce (c_remove fuel a r false).
Proof.
  destruct fuel as [|fuel]; cbn [c_remove]; [apply conce_read, cread_here|]. do 2 (apply conce_bind; [apply cread_here|intros ?]).
  apply conce_then; [apply conce_item|]. intros _. apply cread_bind; [apply cread_clear|intros _; apply cread_here].
Qed.
Lemma cdels_remove b fuel : forall a r, cdels (c_remove fuel a r b).
Proof.
  induction fuel as [|fuel IH]; intros a r; cbn [c_remove]; [apply cdels_read, cread_here|]. do 2 (apply cdels_bind; [apply cdels_read, cread_here|intros ?]).
  apply cdels_bind; [apply cdels_item|]. intros _. apply cdels_bind; [apply cdels_read, cread_clear|]. intros _.
  destruct b; [|apply cdels_read, cread_here]. apply cdels_for. intros tf. apply cdels_bind; [apply cdels_read, cread_here|]. intros us.
  apply cdels_for. intros u. apply cdels_try; [|intros e; apply cdels_read, cread_here]. apply cdels_bind; [apply cdels_read, cread_get|]. intros c. apply IH.
Qed.
Lemma conce_goi a c ids attrs : conce (c_get_or_instantiate a c ids attrs).
Proof.
  apply conce_try; [apply cread_bind; [apply cread_get|intros r; apply cread_here]|]. intros e. do 3 (apply conce_bind; [apply cread_here|intros ?]).
  apply conce_then; [apply conce_add|]. intros _. apply cread_here.
Qed.
Lemma conce_goa a r : conce (c_get_or_add_model_instance a r).
Proof.
  do 2 (apply conce_bind; [apply cread_here|intros ?]). apply conce_try; [apply cread_bind; [apply cread_get|intros r'; apply cread_here]|]. intros e.
  apply conce_then; [apply conce_add|]. intros _. apply cread_here.
Qed.
(** the differ only reads *)
Lemma cread_d {A} (c : CM A) : cread c -> cread (cdlift c).
Proof. intros H s. apply silent_then; [apply H|]. intros x. constructor. Qed.
Lemma cread_s {A} (c : CM A) : cread c -> cread (cslift c).
Proof. intros H s. apply silent_then; [apply H|]. intros x. constructor. Qed.
Lemma cread_fetch_all a t : cread (c_fetch_all a t).
Proof. unfold c_fetch_all. apply cread_bind; [apply cread_d, cread_get_all|intros ?; apply cread_here]. Qed.
Lemma cread_children a o f t : cread (c_fetch_children a o f t).
Proof.
  destruct o as [o|]; cbn [c_fetch_children]; [|apply cread_here]. apply cread_bind; [apply cread_here|intros ?]. unfold c_fetch_by_uids. apply cread_bind; [apply cread_d, cread_by_uids|intros ?; apply cread_here].
Qed.
Lemma cread_list fuel env : forall src dst, cread (c_diff_object_list fuel env src dst).
Proof.
  induction fuel as [|fuel IH]; intros src dst; cbn [c_diff_object_list]; [apply cread_here|]. unfold c_diff_list_body. do 2 (apply cread_bind; [apply cread_here|intros ?]). cbv zeta.
  do 2 (apply cread_bind; [apply cread_here|intros ?]). generalize (pair_up x x0). induction d as [|[u [so do]] l IHl]; cbn [c_diff_pairs]; [apply cread_here|].
  apply cread_bind; [|intros ?; apply cread_bind; [exact IHl|intros ?; apply cread_here]]. unfold c_diff_object_pair. destruct (match so with Some s => Some s | None => do end) as [o|]; [|apply cread_here].
  do 2 (apply cread_bind; [apply cread_here|intros ?]). destruct (skip_pair _ so do); [rd|]. do 2 (apply cread_bind; [apply cread_here|intros ?]). apply cread_bind; [|intros ?; apply cread_here].
  generalize (@nil (string * dict elem)). match goal with |- context [c_diff_child_types _ _ _ _ ?m _] => induction m as [|[t f] mapping IHm] end; intros gs; cbn [c_diff_child_types]; [apply cread_here|].
  apply cread_bind; [apply cread_children|intros ?]. apply cread_bind; [apply cread_children|intros ?]. apply cread_bind; [apply IH|intros ?]. apply cread_bind; [apply cread_here|intros ?; apply IHm].
Qed.
Lemma cread_diff fuel dst src dc flags cb : cread (c_diff_from fuel dst src dc flags cb).
Proof.
  unfold c_diff_from. do 2 (apply cread_bind; [apply cread_here|intros ?]). do 2 (apply cread_bind; [apply cread_count_all|intros ?]). intros w. cbv zeta. apply silent_then; [|intros ?; constructor].
  unfold c_calculate_diffs. match goal with |- silent (cbind ?m ?k ?s) => apply (cread_bind m k) end.
  - apply cread_for. intros t. destruct (smem t _); [apply cread_bind; [apply cread_fetch_all|intros ?; apply cread_here]|]. destruct (smem t _); [apply cread_bind; [apply cread_fetch_all|intros ?; apply cread_here]|apply cread_here].
  - intros _. apply cread_bind; [|intros ?; apply cread_here]. generalize (@nil (string * dict elem)). match goal with |- context [intersection ?a ?b] => induction (intersection a b) as [|t types IH] end; intros gs; cbn [c_diff_types]; [apply cread_here|].
    do 2 (apply cread_bind; [apply cread_fetch_all|intros ?]). apply cread_bind; [apply cread_list|intros ?]. apply cread_bind; [apply cread_here|intros ?; apply IH].
Qed.
Lemma conce_call a c : at_once c -> conce (issued a c).
Proof.
  intros N. destruct c; cbn [issued]; try (now destruct N); (apply conce_then; [|intros ?; apply cread_here]).
  - apply conce_add.
  - apply conce_update.
  - cbn in N; subst children; apply conce_remove.
  - apply conce_item.
  - apply conce_read, cread_get.
  - apply conce_read, cread_gon.
  - apply conce_read, cread_get_all.
  - apply conce_read, cread_by_uids.
  - apply conce_read, cread_names.
  - apply conce_read, cread_count.
  - apply conce_goi.
  - apply conce_goa.
  - apply conce_then; [apply conce_goi|]. intros rb. rd.
  - apply conce_bind; [apply cread_here|intros ?]. apply conce_then; [apply conce_goa|]. intros rb. rd.
  - apply conce_read, cread_here.
  - apply conce_read, cread_here.
  - apply conce_read, cread_diff.
Qed.
Lemma cut_once a c w d d1 q : w_redis w = [] -> at_once c ->
  many cstep (d, issued a c w) (d1, q) -> d1 = d \/ d1 = w_redis (fst (made a c (set_redis w d))).
Proof. intros E N R. apply (single_cut _ (conce_call a c N w)) in R. now rewrite (sim_call a c w d E) in R. Qed.
Lemma cut_remove a fuel r b w d d1 q : w_redis w = [] -> many cstep (d, issued a (KRemove fuel r b) w) (d1, q) ->
  incl (w_redis (fst (made a (KRemove fuel r b) (set_redis w d)))) d1 /\ incl d1 d.
Proof.
  intros E R. assert (D : deleting (issued a (KRemove fuel r b) w)) by (apply cdels_bind; [apply cdels_remove|intros ?; apply cdels_read, cread_here]).
  apply (deleting_cut _ D) in R. now rewrite (sim_call a (KRemove fuel r b) w d E) in R.
Qed.
Lemma cut_history l : forall w d d1 q, w_redis w = [] -> many cstep (d, issued_all l w) (d1, q) ->
  exists n, let w1 := fst (made_all (firstn n l) (set_redis w d)) in
    d1 = w_redis w1 \/
    exists a c q', nth_error l n = Some (a, c) /\ ~ at_once c /\ many cstep (w_redis w1, issued a c (set_redis w1 [])) (d1, q').
Proof.
  induction l as [|[a c] l IH]; intros w d d1 q E R; cbn [issued_all] in R.
  - apply many_inv in R as [R|(s1 & H1 & _)]; [|inversion H1]. injection R as -> ->. exists 0. left. reflexivity.
  - apply then_cut in R as [(q' & R)|R].
    + assert (X : at_once c \/ ~ at_once c) by (destruct c; cbn; auto; destruct children; [right; discriminate|left; reflexivity]). destruct X as [X|X].
      * apply cut_once in R as [->| ->]; [exists 0; left; reflexivity| |exact E|exact X].
        exists 1. left. cbn [firstn made_all]. destruct (made a c (set_redis w d)) as [w1 x]. reflexivity.
      * exists 0. right. exists a, c, q'. split; [reflexivity|]. split; [exact X|]. cbn [firstn made_all fst]. now rewrite redis_back, redis_none.
    + rewrite (sim_call a c w d E) in R. cbn [fst snd] in R. destruct (made a c (set_redis w d)) as [w1 x] eqn:EM; cbn [fst snd] in R.
      assert (R' : exists q', many cstep (w_redis w1, issued_all l (set_redis w1 [])) (d1, q')).
      { apply then_cut in R as [R|R]; [exact R|]. apply many_inv in R as [R|(s1 & H1 & _)]; [|inversion H1]. injection R as -> ->. eexists. apply solo_is. }
      clear R. destruct R' as (q' & R). apply IH in R; [|reflexivity]. rewrite redis_twice, redis_eta in R. destruct R as (n & R). exists (S n). cbv zeta in *.
      cbn [firstn made_all nth_error]. rewrite EM. destruct (made_all (firstn n l) w1) as [w2 xs]. exact R.
Qed.
(** what was not written is not there *)
Lemma cut_retry a w d d1 q c ad i r o u : w_redis w = [] -> nth_error (w_ads w) a = Some ad -> ad_store ad = SRedis i ->
  nth_error (w_heap w) r = Some o -> get_unique_id o = Ok u -> dump_eq o o = true -> c = KAdd r \/ c = KUpdate r ->
  many cstep (d, issued a c w) (d1, q) -> made a c (set_redis w d1) = made a c (set_redis w d).
Proof.
  intros E NA SA NO U DE C R.
  assert (X : at_once c) by (destruct C as [-> | ->]; exact I).
  apply cut_once in R as [->| ->]; [reflexivity| |exact E|exact X].
  assert (HA : forall d, hget r (set_redis w d) = (set_redis w d, Ok o)) by (intros d0; unfold hget; cbn; now rewrite NO).
  assert (HB : forall d, get_adapter a (set_redis w d) = (set_redis w d, Ok ad)) by (intros d0; unfold get_adapter; cbn; now rewrite NA).
  destruct C as [-> | ->]; cbn [made]; unfold mfmap, st_add, st_update, bind; rewrite !HA, U; unfold lift; rewrite !HB, SA; unfold get_state, redis_put, modify, raise, ret; cbn [w_redis set_redis].
  - destruct (dget d (redis_key i (get_type o) u)) as [x|] eqn:G.
    + destruct (dump_eq x o) eqn:D; cbn [fst]; rewrite redis_back, G, D; reflexivity.
    + cbn [fst]. rewrite !redis_back. cbn [set_redis w_redis]. rewrite dget_dset_eq, dump_eq_adapter, DE. reflexivity.
  - cbn [fst set_redis w_redis]. now rewrite dset_dset.
Qed.
