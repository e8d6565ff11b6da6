(** * CutSync: synchronisations into a RedisStore that stop between two commands. *)
From Verif Require Export CutFacts ServerFacts.
From Verif Require Import SyncTrace SyncFrom.

(** ** Programs that set entries only where there are none, and only certain ones, and delete only certain ones *)
Section Law.
  Variables (F : string -> obj -> Prop) (C D : string -> Prop).
  Inductive lawful {A} (Q : A -> Prop) : cprog A -> Prop :=
  | lw_done x : Q x -> lawful Q (Done x)
  | lw_get k f : (forall o, F k o -> lawful Q (f (Some o))) -> lawful Q (f None) -> lawful Q (CGet k f)
  | lw_add k f o p : (forall o', F k o' -> lawful Q (f (Some o'))) -> f None = CSet k o p -> C k -> F k o -> lawful Q p -> lawful Q (CGet k f)
  | lw_exists k f : (forall b, lawful Q (f b)) -> lawful Q (CExists k f)
  | lw_del k f p : f true = CDelete k p -> D k -> lawful Q p -> lawful Q (f false) -> lawful Q (CExists k f)
  | lw_scan pat f : (forall l, lawful Q (f l)) -> lawful Q (CScan pat f).
  Lemma lawful_then {A B} (P : A -> Prop) (Q : B -> Prop) p g : lawful P p -> (forall x, P x -> lawful Q (g x)) -> lawful Q (cthen p g).
  Proof.
    intros H G. induction H as [x X|k f _ IH _ IN|k f o p _ IH E CK FK _ IP|k f _ IH|k f p E DK _ IP _ IN|pat f _ IH]; cbn [cthen].
    - now apply G.
    - now apply lw_get.
    - eapply lw_add; [exact IH|cbv beta; rewrite E; reflexivity|exact CK|exact FK|exact IP].
    - now apply lw_exists.
    - eapply lw_del; [cbv beta; rewrite E; reflexivity|exact DK|exact IP|exact IN].
    - now apply lw_scan.
  Qed.
  Lemma lawful_weaken {A} (P Q : A -> Prop) p : lawful P p -> (forall x, P x -> Q x) -> lawful Q p.
  Proof.
    intros H G. induction H as [x X|k f _ IH _ IN|k f o p _ IH E CK FK _ IP|k f _ IH|k f p E DK _ IP _ IN|pat f _ IH];
      [apply lw_done; auto|now apply lw_get|eapply lw_add; eauto|now apply lw_exists|eapply lw_del; eauto|now apply lw_scan].
  Qed.

  Hypothesis CD : forall k, C k -> D k -> False.
  Definition fit (d : dict obj) : Prop := NoDup (dkeys d) /\ forall k o, dget d k = Some o -> F k o.
  Definition comes (d d1 : dict obj) : Prop := forall k,
    dget d1 k = dget d k \/ (C k /\ dget d k = None /\ dget d1 k <> None) \/ (D k /\ dget d k <> None /\ dget d1 k = None).
  Lemma comes_refl d : comes d d.
  Proof. intros k. now left. Qed.
  Lemma comes_trans d d1 d2 : comes d d1 -> comes d1 d2 -> comes d d2.
  Proof.
    intros A B k. destruct (A k) as [E|[(K & U & V)|(K & U & V)]], (B k) as [E'|[(K' & U' & V')|(K' & U' & V')]];
      rewrite ?E in *; rewrite ?E' in *; auto; try congruence; try (destruct (CD k); auto; fail).
  Qed.
  Lemma fit_set d k o : fit d -> F k o -> fit (dset d k o).
  Proof.
    intros [A B] FK. split; [now apply NoDup_dset|]. intros k' o' G. destruct (string_dec k' k) as [->|N].
    - rewrite dget_dset_eq in G. now injection G as <-.
    - rewrite dget_dset_neq in G by auto. now apply B.
  Qed.
  Lemma fit_del d k : fit d -> fit (ddel d k).
  Proof.
    intros [A B]. split; [now apply NoDup_ddel|]. intros k' o' G. destruct (string_dec k' k) as [->|N].
    - rewrite dget_ddel_eq in G by auto. discriminate.
    - rewrite dget_ddel_neq in G by auto. now apply B.
  Qed.
  Lemma comes_set d k o : C k -> dget d k = None -> comes d (dset d k o).
  Proof.
    intros CK G k'. destruct (string_dec k' k) as [->|N]; [right; left|left; apply dget_dset_neq; congruence]. rewrite dget_dset_eq. repeat split; auto. discriminate.
  Qed.
  Lemma comes_del d k o : NoDup (dkeys d) -> D k -> dget d k = Some o -> comes d (ddel d k).
  Proof.
    intros ND DK G k'. destruct (string_dec k' k) as [->|N]; [right; right|left; apply dget_ddel_neq; congruence]. rewrite dget_ddel_eq by auto. repeat split; auto. congruence.
  Qed.
  Lemma lawful_solo {A} (Q : A -> Prop) p : lawful Q p -> forall d, fit d -> comes d (fst (solo d p)).
  Proof.
    induction 1 as [x X|k f _ IH _ IN|k f o p _ IH E CK FK _ IP|k f _ IH|k f p E DK _ IP _ IN|pat f _ IH]; intros d FD; cbn [solo fst].
    - apply comes_refl.
    - destruct (dget d k) as [o|] eqn:G; [apply IH; [now apply FD|exact FD]|now apply IN].
    - destruct (dget d k) as [o'|] eqn:G; [apply IH; [now apply FD|exact FD]|]. rewrite E. cbn [solo]. eapply comes_trans; [now apply (comes_set d k o)|]. apply IP. now apply fit_set.
    - now apply IH.
    - destruct (dget d k) as [o|] eqn:G; [|now apply IN]. rewrite E. cbn [solo]. eapply comes_trans; [now apply (comes_del d k o); [apply FD|..]|]. apply IP. now apply fit_del.
    - now apply IH.
  Qed.
  Lemma lawful_cut {A} (Q : A -> Prop) p : lawful Q p -> forall d d1 q, fit d -> many cstep (d, p) (d1, q) -> comes d d1 /\ comes d1 (fst (solo d p)).
  Proof.
    induction 1 as [x X|k f H IH H' IN|k f o p H IH E CK FK HP IP|k f H IH|k f p E DK HP IP H IN|pat f H IH]; intros d d1 q FD R;
      (apply many_inv in R as [R|(s1 & H1 & H2)];
       [injection R as -> ->; split; [apply comes_refl|]; match goal with |- comes d (fst (solo d ?p)) => apply (lawful_solo Q p) end; [|exact FD]; econstructor; eassumption|inversion H1; subst]); cbn [solo fst].
    - destruct (dget d k) as [o|] eqn:G; [apply (IH o) in H2; [exact H2|now apply FD|exact FD]|now apply IN in H2].
    - destruct (dget d k) as [o'|] eqn:G; [apply (IH o') in H2; [exact H2|now apply FD|exact FD]|]. rewrite E in *. cbn [solo].
      assert (X : comes d (dset d k o)) by now apply comes_set. assert (Y : fit (dset d k o)) by now apply fit_set.
      apply many_inv in H2 as [R|(s1 & H3 & H4)].
      + injection R as -> ->. split; [apply comes_refl|]. eapply comes_trans; [exact X|]. now apply (lawful_solo Q).
      + inversion H3; subst. apply IP in H4 as (U & V); [|exact Y]. split; [eapply comes_trans; [exact X|exact U]|exact V].
    - now apply IH in H2.
    - destruct (dget d k) as [o|] eqn:G; [|now apply IN in H2]. rewrite E in *. cbn [solo].
      assert (X : comes d (ddel d k)) by (eapply comes_del; [apply FD|exact DK|exact G]). assert (Y : fit (ddel d k)) by now apply fit_del.
      apply many_inv in H2 as [R|(s1 & H3 & H4)].
      + injection R as -> ->. split; [apply comes_refl|]. eapply comes_trans; [exact X|]. now apply (lawful_solo Q).
      + inversion H3; subst. apply IP in H4 as (U & V); [|exact Y]. split; [eapply comes_trans; [exact X|exact U]|exact V].
    - now apply IH in H2.
  Qed.
  Lemma lawful_mid d d1 d2 k : comes d d1 -> comes d1 d2 ->
    dget d1 k = dget d k \/ (dget d1 k = dget d2 k /\ ((C k /\ dget d k = None) \/ (D k /\ dget d1 k = None))).
  Proof.
    intros A B. destruct (A k) as [E|[(K & U & V)|(K & U & V)]]; [now left|right|right]; destruct (B k) as [E'|[(K' & U' & V')|(K' & U' & V')]]; try congruence; try (destruct (CD k); auto; fail); auto.
  Qed.

  (** ** Methods *)
  Definition law {St A} (c : SM St A) (s : St) (Q : A -> St -> Prop) : Prop :=
    lawful (fun sx => match snd sx with Ok x => Q x (fst sx) | Err _ => True end) (c s).
  Lemma law_bind {St A B} (m : SM St A) (k : A -> SM St B) s (Q : B -> St -> Prop) : law m s (fun x s1 => law (k x) s1 Q) -> law (cbind m k) s Q.
  Proof. intros H. eapply lawful_then; [exact H|]. intros [s1 [x|e]] X; cbn [fst snd] in *; [exact X|now constructor]. Qed.
  Lemma law_here {St A} (m : M St A) s (Q : A -> St -> Prop) : (forall s' x, m s = (s', Ok x) -> Q x s') -> law (here m) s Q.
  Proof. intros H. constructor. destruct (m s) as [s' [x|e]] eqn:E; cbn [fst snd]; [now apply H|exact I]. Qed.
  Lemma law_weaken {St A} (c : SM St A) s (Q Q' : A -> St -> Prop) : law c s Q -> (forall x s', Q x s' -> Q' x s') -> law c s Q'.
  Proof. intros H K. eapply lawful_weaken; [exact H|]. intros [s' [x|e]]; cbn [fst snd]; auto. Qed.
  Lemma law_s {A} (c : CM A) s (Q : A -> sstate -> Prop) : law c (ss_w s) (fun x w => Q x (set_ss_w s w)) -> law (cslift c) s Q.
  Proof. intros H. eapply lawful_then; [exact H|]. intros [w' [x|e]] X; constructor; cbn [fst snd] in *; auto. Qed.
End Law.

Section Run.
  Variables (w0 : world) (dst : aid) (da : adapter) (i : string).
  Variables (env : senv) (ord : order_fn) (gs : dict (dict elem)).
  Hypothesis ED : sv_dst env = dst.
  Hypothesis SD : server_dst w0 dst da i.
  Hypothesis DW : deletes_whole gs.

  Definition filed_at (k : string) (o : obj) : Prop := forall t c u, dget (ad_classes da) t = Some c -> k = redis_key i t u ->
    get_type o = t /\ get_unique_id o = Ok u /\ ~ skips_children (o_flags o).
  Definition to_create (k : string) : Prop := exists t u, k = redis_key i t u /\ mentioned w0 dst gs is_create_act (t, u).
  Definition to_delete (k : string) : Prop := exists t u, k = redis_key i t u /\ mentioned w0 dst gs is_delete_act (t, u).
  Notation Law := (law filed_at to_create to_delete).
  Notation Lawful := (lawful filed_at to_create to_delete).

  Definition good (w : world) : Prop := nth_error (w_ads w) dst = Some da.
  (** objects are at most added *)
  Definition grown (w w' : world) : Prop := good w' /\ exists news, w_heap w' = w_heap w ++ news.
  Definition goes (n : nat) (w w' : world) : Prop := good w' /\ steady n w w'.
  Lemma goes_refl n w : good w -> goes n w w.
  Proof. intros G. split; [exact G|apply steady_refl]. Qed.
  Lemma goes_trans n w w1 w2 : goes n w w1 -> goes n w1 w2 -> goes n w w2.
  Proof. intros [_ A] [B C]. split; [exact B|]. eapply steady_trans; eauto. Qed.
  Lemma goes_le n m w w' : m <= n -> goes n w w' -> goes m w w'.
  Proof. intros L [A B]. split; [exact A|]. eapply steady_le; eauto. Qed.
  Lemma goes_grown n w w' : grown w w' -> goes n w w'.
  Proof. intros [A (news & E)]. split; [exact A|]. eapply steady_app; eauto. Qed.
  Lemma goes_heap n w w' : good w -> w_ads w' = w_ads w -> steady n w w' -> goes n w w'.
  Proof. intros A E S. split; [unfold good in *; now rewrite E|exact S]. Qed.
  Lemma grown_refl w : good w -> grown w w.
  Proof. intros G. split; [exact G|]. exists []. now rewrite app_nil_r. Qed.

  Lemma law_count a w : good w -> Law (c_count_all a) w (fun _ w' => w' = w).
  Proof.
    intros G. unfold law, c_count_all. destruct (nth_error (w_ads w) a) as [ad|]; [|now constructor].
    destruct (ad_store ad); [now constructor|]. apply lw_scan. intros l. now constructor.
  Qed.
  Lemma law_truthy x w : good w -> Law (c_truthy x) w (fun _ w' => w' = w).
  Proof.
    intros G. destruct x as [b|]; cbn [c_truthy]; [|apply law_here; intros s' x E; now injection E as <- _].
    apply law_bind. eapply law_weaken; [now apply law_count|]. intros n w' ->. apply law_here. intros s' y E. now injection E as <- _.
  Qed.
  (** with or without an exception *)
  Lemma always_bind {A B} (m : CM A) (k : A -> CM B) w0' w : Lawful (fun wx => grown w0' (fst wx)) (m w) ->
    (forall w1 x, grown w0' w1 -> Lawful (fun wx => grown w0' (fst wx)) (k x w1)) -> Lawful (fun wx => grown w0' (fst wx)) (cbind m k w).
  Proof. intros H K. eapply lawful_then; [exact H|]. intros [w1 [x|e]] G; cbn [fst snd] in *; [now apply K|now constructor]. Qed.
  Lemma always_here {A} (m : M world A) w1 w : grown w1 (fst (m w)) -> Lawful (fun wx => grown w1 (fst wx)) (here m w).
  Proof. intros H. now constructor. Qed.
  Lemma grown_trans w w1 w2 : grown w w1 -> grown w1 w2 -> grown w w2.
  Proof. intros [_ (a & A)] [G (b & B)]. split; [exact G|]. exists (a ++ b). now rewrite B, A, app_assoc. Qed.
  Lemma always_load a k w1 w : grown w1 w -> Lawful (fun wx => grown w1 (fst wx)) (c_load a k w).
  Proof.
    intros G. unfold c_load, cbind, cget. cbn [cthen fst snd]. apply lw_get; [intros o _|]; constructor; cbn [halloc raise fst snd]; [|exact G].
    eapply grown_trans; [exact G|]. split; [apply G|]. eexists. reflexivity.
  Qed.
  Lemma always_get a m x w : good w -> Lawful (fun wx => grown w (fst wx)) (c_get a m x w).
  Proof.
    intros G. unfold c_get. unfold cbind at 1. unfold here at 1. unfold get_adapter. destruct (nth_error (w_ads w) a) as [ad|] eqn:NA; cbn [cthen fst snd]; [|constructor; now apply grown_refl].
    cbv zeta. unfold cbind at 1. unfold here at 1. unfold lift. cbn [cthen fst snd]. destruct (get_uid _ x) as [u|]; [|constructor; now apply grown_refl].
    destruct (ad_store ad) as [d|sid] eqn:SA; [|apply always_load; now apply grown_refl]. constructor. unfold bind.
    assert (X : forall st, grown w (fst (put_store a st w)) /\ snd (put_store a st w) = Ok tt).
    { intros st. unfold put_store, modify. cbn [fst snd]. rewrite NA. split; [|reflexivity]. split; [|exists []; cbn; now rewrite app_nil_r]. unfold good in *. cbn [set_ads w_ads].
      rewrite nth_list_set_neq; [exact G|]. intros ->. rewrite G in NA. injection NA as <-. rewrite (sd_store _ _ _ _ SD) in SA. discriminate. }
    match goal with |- context [put_store a ?st w] => destruct (X st) as [Y Z]; destruct (put_store a st w) as [w1 y] end. cbn [fst snd] in *. rewrite Z. now destruct (dget (bucket d _) u).
  Qed.
  Lemma always_gon a m x w : good w -> Lawful (fun wx => grown w (fst wx)) (c_get_or_none a m x w).
  Proof.
    intros G. unfold c_get_or_none, ctry. eapply lawful_then.
    - apply always_bind; [now apply always_get|]. intros w1 r H. now apply always_here.
    - intros [w1 [r|e]] H; cbn [fst snd] in *; [now constructor|]. destruct (is_not_found e); now constructor.
  Qed.
  Lemma skip_off f : ~ skips_children f -> has_flag f MF_SKIP_CHILDREN_ON_DELETE = false.
  Proof. unfold skips_children. rewrite skip_bit1. destruct (N.testbit f 1); [intros H; now destruct H|reflexivity]. Qed.
  (** the object that is loaded *)
  Definition loaded (w : world) (t u : string) (x : option ref) (w' : world) : Prop :=
    match x with
    | None => w' = w
    | Some r => r = length (w_heap w) /\ exists o, w' = set_heap w (w_heap w ++ [o]) /\ get_type o = t /\ get_unique_id o = Ok u /\ ~ skips_children (o_flags o)
    end.
  Lemma law_dst w t c ids u : good w -> dget (ad_classes da) t = Some c -> create_unique_id c ids = Ok u ->
    Law (c_get_dst_model env c ids) w (loaded w t u).
  Proof.
    intros G K U. destruct (sd_class _ _ _ _ SD _ _ K) as (MN & _). unfold good in G.
    unfold law, c_get_dst_model, ctry, c_get. rewrite ED. unfold cbind, here, get_adapter. rewrite G. cbn [cthen fst snd object_class_and_model]. unfold get_uid, lift. rewrite U. cbn [cthen fst snd].
    rewrite (sd_store _ _ _ _ SD), MN. unfold c_load, cbind, cget. cbn [cthen fst snd]. apply lw_get.
    - intros o FO. destruct (FO t c u K eq_refl) as (A1 & A2 & A3). unfold here, halloc. cbn [cthen fst snd].
      unfold mutate, bind, hget, hset, lift, ret. cbn [w_heap set_heap fst snd]. rewrite nth_error_app2, Nat.sub_diag by auto. cbn [nth_error fst snd].
      unfold modify, set_heap. cbn [w_heap w_ads w_redis w_trace fst snd cthen]. rewrite list_set_last. constructor. cbn [fst snd loaded]. split; [reflexivity|].
      exists (set_status (set_o_adapter o (Some dst)) StUnknown ""). split; [reflexivity|]. auto.
    - unfold here, raise. cbn [cthen fst snd is_not_found]. constructor. reflexivity.
  Qed.

  (** ** The hooks, whatever they do *)
  Lemma mutate_any n r f w w' x : good w -> mutate r f w = (w', x) ->
    (forall o, nth_error (w_heap w) r = Some o -> n <= r \/ (o_cls (fst (f o)) = o_cls o /\ get_identifiers (fst (f o)) = get_identifiers o /\ o_flags (fst (f o)) = o_flags o)) ->
    goes n w w'.
  Proof.
    intros G E H. unfold mutate, bind, hget, hset, lift, modify in E. destruct (nth_error (w_heap w) r) as [o|] eqn:R; [|injection E as <- _; now apply goes_refl].
    assert (X : w' = set_heap w (list_set (w_heap w) r (fst (f o)))) by congruence. subst w'. apply goes_heap; [exact G|reflexivity|]. eapply steady_set; [eassumption|]. now apply H.
  Qed.
  Lemma goes_event n w ev : good w -> goes n w (add_event w ev).
  Proof. intros G. apply goes_grown. split; [exact G|]. exists []. cbn. now rewrite app_nil_r. Qed.
  Lemma update_any n w r attrs w' x : good w -> n <= r -> call_update env r attrs w = (w', x) -> goes n w w'.
  Proof.
    intros G L. unfold call_update. unfold bind at 1. cbn [get_state]. set (out := sv_hooks env w (HUpdate r attrs)).
    unfold bind at 1. unfold hget at 1. destruct (nth_error (w_heap w) r) as [o|]; [|intros E; injection E as <- _; now apply goes_refl]. unfold bind at 1. cbn [emit modify].
    set (w1 := add_event _ _). assert (L1 : goes n w w1) by now apply goes_event.
    unfold bind at 1. destruct ((if ho_base out then mutate r (fun o0 => update_base o0 attrs) else ret tt) w1) as [w2 y] eqn:M1.
    assert (L2 : goes n w w2).
    { destruct (ho_base out); [|injection M1 as <- _; exact L1]. eapply goes_trans; [exact L1|]. eapply mutate_any; [apply L1|exact M1|]. auto. }
    destruct y as [[]|e]; [|intros E; injection E as <- _; exact L2].
    unfold bind at 1. destruct (mutate r (fun o0 => (apply_hook out o0, Ok tt)) w2) as [w3 y] eqn:M2.
    assert (L3 : goes n w w3) by (eapply goes_trans; [exact L2|]; eapply mutate_any; [apply L2|exact M2|]; auto).
    destruct y as [[]|e]; [|intros E; injection E as <- _; exact L3]. destruct (ho_end out); intros E; injection E as <- _; exact L3.
  Qed.
  Lemma delete_any n w r w' x : good w -> call_delete env r w = (w', x) -> goes n w w' /\ (forall r', x = Ok (Some r') -> r' = r).
  Proof.
    intros G. unfold call_delete. unfold bind at 1. cbn [get_state]. set (out := sv_hooks env w (HDelete r)).
    unfold bind at 1. unfold hget at 1. destruct (nth_error (w_heap w) r) as [o|]; [|intros E; injection E as <- <-; split; [now apply goes_refl|discriminate]]. unfold bind at 1. cbn [emit modify].
    set (w1 := add_event _ _). assert (L1 : goes n w w1) by now apply goes_event.
    unfold bind at 1. destruct ((if ho_base out then mutate r (fun o0 => (delete_base o0, Ok tt)) else ret tt) w1) as [w2 y] eqn:M1.
    assert (L2 : goes n w w2).
    { destruct (ho_base out); [|injection M1 as <- _; exact L1]. eapply goes_trans; [exact L1|]. eapply mutate_any; [apply L1|exact M1|]. intros; right; cbn; auto. }
    destruct y as [[]|e]; [|intros E; injection E as <- <-; split; [exact L2|discriminate]].
    unfold bind at 1. destruct (mutate r (fun o0 => (apply_hook out o0, Ok tt)) w2) as [w3 y] eqn:M2.
    assert (L3 : goes n w w3).
    { eapply goes_trans; [exact L2|]. eapply mutate_any; [apply L2|exact M2|]. intros o1 _. right. cbn [fst]. destruct (apply_hook_any out o1) as (A1 & _ & A3 & A4 & _). auto. }
    destruct y as [[]|e]; [|intros E; injection E as <- <-; split; [exact L3|discriminate]].
    destruct (ho_end out); intros E; injection E as <- <-; (split; [exact L3|intros r' X; congruence]).
  Qed.
  Lemma create_any n w c ids attrs w' x : good w -> call_create env c ids attrs w = (w', x) ->
    goes n w w' /\ (forall r, x = Ok (Some r) -> exists o o1, create_base c dst ids attrs = Ok o /\ nth_error (w_heap w') r = Some o1 /\ same_but anyf o o1).
  Proof.
    intros G. unfold call_create. unfold bind at 1. cbn [get_state]. set (out := sv_hooks env w (HCreate c ids attrs)). rewrite ED.
    unfold bind at 1. cbn [emit modify]. set (w1 := add_event _ _). assert (L1 : goes n w w1) by now apply goes_event.
    unfold bind at 1. destruct (ho_base out).
    - unfold bind at 1. unfold lift. destruct (create_base c dst ids attrs) as [o|e] eqn:CB; [|intros E; injection E as <- <-; split; [exact L1|discriminate]].
      unfold bind at 1. unfold halloc. unfold ret. set (w2 := set_heap _ _).
      assert (L2 : goes n w w2) by (eapply goes_trans; [exact L1|]; apply goes_grown; split; [apply L1|eexists; reflexivity]).
      destruct (ho_end out); intros E; injection E as <- <-; (split; [exact L2|]); intros r X; try discriminate. injection X as <-.
      exists o, (apply_hook out o). split; [reflexivity|]. split; [|apply apply_hook_any]. cbn. now rewrite nth_error_app2, Nat.sub_diag by auto.
    - unfold ret. destruct (ho_end out); intros E; injection E as <- <-; (split; [exact L1|intros r X; discriminate]).
  Qed.
  Lemma try_any n dm ids attrs s s' x : good (ss_w s) -> (forall r, dm = Some r -> n <= r) -> sync_model_try env dm ids attrs s = (s', x) ->
    goes n (ss_w s) (ss_w s') /\ ss_action s' = ss_action s /\
    (ss_action s <> Some AUpdate -> forall m, goes m (ss_w s) (ss_w s')) /\
    (forall r sm, x = Ok (Some r, sm) -> match ss_action s with
       | Some ACreate => exists c o o1, ss_class s = Some c /\ create_base c dst ids attrs = Ok o /\ nth_error (w_heap (ss_w s')) r = Some o1 /\ same_but anyf o o1
       | Some ADelete => dm = Some r
       | _ => True
       end).
  Proof.
    intros G LE. unfold sync_model_try. unfold bind at 1. cbn [get_state].
    assert (Z : forall (k : M world (option ref)) s', bind (slift k) (fun m0 => match m0 with
        | Some r => o <- slift (hget r) ;; ret (Some r, get_status o)
        | None => ret (None, (StFailure, (class_name s ++ " " ++ action_str (ss_action s) ++ " did not return the model object.")%string))
        end) s = (s', x) -> exists y, k (ss_w s) = (ss_w s', y) /\ ss_action s' = ss_action s /\ forall r sm, x = Ok (Some r, sm) -> y = Ok (Some r)).
    { intros k s1. unfold bind at 1. unfold slift at 1. destruct (k (ss_w s)) as [w1 [[r|]|e]]; cbn [fst snd].
      - unfold bind, slift, hget. cbn [set_ss_w ss_w]. destruct (nth_error (w_heap w1) r) as [o|]; cbn [fst snd];
          unfold ret; intros H; injection H as <- <-; eexists; (split; [reflexivity|]); (split; [reflexivity|]); intros r' sm X; try discriminate. now injection X as <- _.
      - unfold ret. intros H. injection H as <- <-. eexists. split; [reflexivity|]. split; [reflexivity|]. intros; discriminate.
      - intros H. injection H as <- <-. eexists. split; [reflexivity|]. split; [reflexivity|]. intros; discriminate. }
    assert (N : forall e, (s, Err e) = (s', x) -> goes n (ss_w s) (ss_w s') /\ ss_action s' = ss_action s /\ (forall m, goes m (ss_w s) (ss_w s')) /\ forall r sm, x <> Ok (Some r, sm)).
    { intros e H. injection H as <- <-. split; [now apply goes_refl|]. split; [reflexivity|]. split; [intros m; now apply goes_refl|discriminate]. }
    destruct (ss_action s) as [[]|].
    - destruct dm; [intros H; apply N in H as (H1 & H2 & H3 & H4); split; [exact H1|]; split; [exact H2|]; split; [intros _; exact H3|]; intros r' sm X; now apply H4 in X|].
      destruct (ss_class s) as [c|]; [|intros H; apply N in H as (H1 & H2 & H3 & H4); split; [exact H1|]; split; [exact H2|]; split; [intros _; exact H3|]; intros r' sm X; now apply H4 in X].
      intros H. apply Z in H as (y & H1 & H2 & H3). split; [now apply (create_any n) in H1|]. split; [exact H2|]. split; [intros _ m; now apply (create_any m) in H1|].
      intros r sm X. apply (create_any n) in H1 as (_ & H1); [|exact G]. destruct (H1 r (H3 r sm X)) as (o & o1 & K1 & K2 & K3). exists c, o, o1. auto.
    - destruct dm as [r|]; [|intros H; apply N in H as (H1 & H2 & H3 & H4); split; [exact H1|]; split; [exact H2|]; split; [intros _; exact H3|]; intros r' sm X; now apply H4 in X].
      intros H. apply Z in H as (y & H1 & H2 & H3). split; [eapply update_any; [exact G|now apply LE|exact H1]|]. split; [exact H2|]. split; [intros X; now destruct X|auto].
    - destruct dm as [r|]; [|intros H; apply N in H as (H1 & H2 & H3 & H4); split; [exact H1|]; split; [exact H2|]; split; [intros _; exact H3|]; intros r' sm X; now apply H4 in X].
      intros H. apply Z in H as (y & H1 & H2 & H3). split; [now apply (delete_any n) in H1|]. split; [exact H2|]. split; [intros _ m; now apply (delete_any m) in H1|].
      intros r' sm X. apply (delete_any n) in H1 as (_ & H1); [|exact G]. now rewrite (H1 r' (H3 r' sm X)).
    - intros H; apply N in H as (H1 & H2 & H3 & H4); split; [exact H1|]; split; [exact H2|]; split; [intros _; exact H3|]; intros r' sm X; now apply H4 in X.
  Qed.
  Lemma noted_goes n w w' : good w -> noted w w' -> goes n w w'.
  Proof. intros G [->|(ev & ->)]; [now apply goes_refl|now apply goes_event]. Qed.
  Lemma model_any n dm ids attrs s s' x : good (ss_w s) -> (forall r, dm = Some r -> n <= r) -> sync_model env dm ids attrs s = (s', Ok x) ->
    goes n (ss_w s) (ss_w s') /\ ss_action s' = ss_action s /\
    (ss_action s <> Some AUpdate -> forall m, goes m (ss_w s) (ss_w s')) /\
    (forall r, snd x = Some r -> match ss_action s with
       | Some ACreate => exists c o o1, ss_class s = Some c /\ create_base c dst ids attrs = Ok o /\ nth_error (w_heap (ss_w s')) r = Some o1 /\ same_but anyf o o1
       | Some ADelete => dm = Some r
       | _ => True
       end).
  Proof.
    intros G LE. unfold sync_model. unfold bind at 1. cbn [get_state]. destruct (ss_action s) as [a|] eqn:EA.
    2:{ unfold bind at 1. destruct (log_run env None StSuccess "No changes to apply; no action needed" s) as (w' & -> & N). unfold ret. intros H. injection H as <- <-.
        cbn [ss_w set_ss_w ss_action]. split; [now apply noted_goes|]. split; [exact EA|]. split; [intros _ m; now apply noted_goes|auto]. }
    unfold bind at 1. unfold try_catch. unfold bind at 1.
    destruct (sync_model_try env dm ids attrs s) as [s1 r1] eqn:T. apply (try_any n) in T as (T1 & T2 & T3 & T4); [|exact G|exact LE]. rewrite EA in *.
    destruct r1 as [[m [st msg]]|e].
    - cbn [ret]. unfold bind. destruct (log_run env (Some a) st msg s1) as (w' & -> & N). unfold ret. intros H. injection H as <- <-. cbn [ss_w set_ss_w ss_action snd].
      assert (NH : w_heap w' = w_heap (ss_w s1)) by (destruct N as [->|(ev & ->)]; reflexivity).
      split; [eapply goes_trans; [exact T1|apply noted_goes; [apply T1|exact N]]|]. split; [exact T2|]. split; [intros K m'; eapply goes_trans; [now apply T3|apply noted_goes; [apply T1|exact N]]|].
      intros r X. subst m. specialize (T4 r (st, msg) eq_refl). now rewrite NH.
    - cbv beta iota. destruct (is_crud e); [|discriminate]. unfold bind at 1. destruct (log_run env (Some a) StError (exn_msg e) s1) as (w' & -> & N).
      destruct (has_flag _ _); [|discriminate]. unfold ret. intros H. injection H as <- <-. cbn [ss_w set_ss_w ss_action snd].
      split; [eapply goes_trans; [exact T1|apply noted_goes; [apply T1|exact N]]|]. split; [exact T2|]. split; [intros K m'; eapply goes_trans; [now apply T3|apply noted_goes; [apply T1|exact N]]|]. discriminate.
  Qed.

  (** ** The store *)
  Lemma fresh_filed t c u o : dget (ad_classes da) t = Some c -> get_type o = t -> get_unique_id o = Ok u -> ~ skips_children (o_flags o) -> filed_at (redis_key i t u) o.
  Proof.
    intros K T U S t' c' u' K' E. destruct (sd_class _ _ _ _ SD _ _ K) as (_ & P & _). destruct (sd_class _ _ _ _ SD _ _ K') as (_ & P' & _).
    destruct (key_inj _ _ _ _ _ _ (sd_id _ _ _ _ SD) P (sd_id _ _ _ _ SD) P' E) as (_ & <- & <-). auto.
  Qed.
  Lemma add_child_any n w p r w' x : good w -> heap_add_child p r w = (w', x) -> goes n w w'.
  Proof.
    intros G. unfold heap_add_child, bind, hget, lift. destruct (nth_error (w_heap w) p) as [po|] eqn:P; [|intros E; injection E as <- _; now apply goes_refl].
    destruct (nth_error (w_heap w) r) as [co|] eqn:R; [|intros E; injection E as <- _; now apply goes_refl]. destruct (add_child po co) as [po'|] eqn:A; [|intros E; injection E as <- _; now apply goes_refl].
    unfold hset, modify. intros H. injection H as <- _. destruct (add_child_inv _ _ _ A) as (f & l & u & _ & _ & _ & _ & ->).
    apply goes_heap; [exact G|reflexivity|]. eapply steady_set; [exact P|]. right. auto.
  Qed.
  Lemma remove_child_any n w p r w' x : good w -> heap_remove_child p r w = (w', x) -> goes n w w'.
  Proof.
    intros G. unfold heap_remove_child, bind, hget, lift. destruct (nth_error (w_heap w) p) as [po|] eqn:P; [|intros E; injection E as <- _; now apply goes_refl].
    destruct (nth_error (w_heap w) r) as [co|] eqn:R; [|intros E; injection E as <- _; now apply goes_refl]. destruct (remove_child po co) as [po'|] eqn:A; [|intros E; injection E as <- _; now apply goes_refl].
    unfold hset, modify. intros H. injection H as <- _. destruct (remove_child_inv _ _ _ A) as (f & l & u & _ & _ & _ & _ & ->).
    apply goes_heap; [exact G|reflexivity|]. eapply steady_set; [exact P|]. right. auto.
  Qed.
  Lemma goes_at n w w' r o t u : goes n w w' -> r < n -> nth_error (w_heap w) r = Some o -> get_type o = t -> get_unique_id o = Ok u ->
    exists o', nth_error (w_heap w') r = Some o' /\ get_type o' = t /\ get_unique_id o' = Ok u /\ o_flags o' = o_flags o.
  Proof.
    intros [_ [_ H]] L R T U. destruct (H r o L R) as (o' & R' & A & B & C). exists o'. destruct (uid_same o o' A B) as [X Y]. repeat split; congruence.
  Qed.
  Lemma law_clear n r w : good w -> Law (c_clear_adapter r) w (fun _ w' => goes n w w').
  Proof.
    intros G. unfold c_clear_adapter. apply law_bind, law_here. intros w' o E. unfold hget in E. destruct (nth_error (w_heap w) r) as [o'|] eqn:R; [|discriminate]. injection E as <- <-.
    apply law_bind. eapply law_weaken; [now apply law_truthy|]. intros b w' ->. destruct b; apply law_here; intros w' x E.
    - unfold hset, modify in E. injection E as <- _. apply goes_heap; [exact G|reflexivity|]. eapply steady_set; [exact R|]. right. auto.
    - injection E as <- _. now apply goes_refl.
  Qed.
  Lemma law_apply n e c u act parent r w : good w -> dget (ad_classes da) (e_type e) = Some c -> create_unique_id c (e_keys e) = Ok u -> occurs e gs ->
    act = e_action e ->
    (act = Some ACreate -> exists o, nth_error (w_heap w) r = Some o /\ get_type o = e_type e /\ (forall u', get_unique_id o = Ok u' -> u' = u) /\ ~ skips_children (o_flags o)) ->
    (act = Some ADelete -> exists o, nth_error (w_heap w) r = Some o /\ get_type o = e_type e /\ get_unique_id o = Ok u) ->
    Law (c_apply_to_store env act parent r false) w (fun b w' => b = false /\ goes n w w').
  Proof.
    intros G K U OC EA HC HD. destruct (sd_class _ _ _ _ SD _ _ K) as (MN & _).
    assert (NM : names w0 dst e (e_type e, u)) by (exists da, c; split; [apply (sd_ad _ _ _ _ SD)|]; split; [exact K|]; split; [cbn; congruence|exact U]).
    assert (Z : Law (here (ret false)) w (fun b w' => b = false /\ goes n w w')) by (apply law_here; intros w' x E; injection E as <- <-; split; [reflexivity|now apply goes_refl]).
    destruct act as [[]|]; cbn [c_apply_to_store]; try exact Z; clear Z.
    - clear HD. destruct (HC eq_refl) as (o & R & T & OU & SK). apply law_bind, law_here. intros w1 x E.
      assert (G1 : forall m, goes m w w1) by (intros m; destruct parent as [p|]; [now apply (add_child_any m) in E|injection E as <- _; now apply goes_refl]). clear E x.
      assert (R1 : exists o1, nth_error (w_heap w1) r = Some o1 /\ get_type o1 = e_type e /\ (forall u', get_unique_id o1 = Ok u' -> u' = u) /\ ~ skips_children (o_flags o1)).
      { destruct (G1 (S r)) as [_ [_ H]]. destruct (H r o (Nat.lt_succ_diag_r r) R) as (o1 & R1 & A & B & C). destruct (uid_same o o1 A B) as [X Y].
        exists o1. split; [exact R1|]. split; [congruence|]. split; [intros u'; rewrite X; apply OU|now rewrite C]. }
      clear R T OU SK o. destruct R1 as (o & R & T & OU & SK). apply law_bind.
      assert (X : Law (c_add (sv_dst env) r) w1 (fun _ w' => goes n w w')).
      2:{ eapply law_weaken; [exact X|]. intros y w2 H. apply law_here. intros w3 b E. injection E as <- <-. now split. }
      unfold c_add. apply law_bind, law_here. intros w2 o' E. unfold hget in E. rewrite R in E. injection E as <- <-.
      apply law_bind, law_here. intros w2 u' E. unfold lift in E. injection E as <- E. assert (u' = u) by now apply OU. subst u'. cbv zeta.
      apply law_bind, law_here. intros w2 ad E'. unfold get_adapter in E'. rewrite ED, (proj1 (G1 0)) in E'. injection E' as <- <-. rewrite (sd_store _ _ _ _ SD), T.
      unfold law, cbind, cget, c_put, cset. cbn [cthen fst snd]. eapply lw_add with (o := set_o_adapter o None).
      + intros o' _. constructor. destruct (dump_eq o' o); cbn [ret raise fst snd]; [apply G1|exact I].
      + reflexivity.
      + exists (e_type e), u. split; [reflexivity|]. exists e. split; [exact OC|]. split; [rewrite <- EA; reflexivity|exact NM].
      + eapply fresh_filed; [exact K| | |]; [exact T|exact E|exact SK].
      + constructor. cbn [fst snd]. apply G1.
    - clear HC. destruct (HD eq_refl) as (o & R & T & OU). apply law_bind, law_here. intros w1 x E.
      assert (G1 : forall m, goes m w w1) by (intros m; destruct parent as [p|]; [now apply (remove_child_any m) in E|injection E as <- _; now apply goes_refl]). clear E x.
      destruct (goes_at (S r) w w1 r o _ _ (G1 (S r)) (Nat.lt_succ_diag_r r) R T OU) as (o1 & R1 & T1 & U1 & _). clear R T OU o.
      apply law_bind. assert (X : Law (c_remove (sv_fuel env) (sv_dst env) r false) w1 (fun _ w' => goes n w w')).
      2:{ eapply law_weaken; [exact X|]. intros y w2 H. apply law_here. intros w3 b E. injection E as <- <-. now split. }
      destruct (sv_fuel env) as [|fuel]; cbn [c_remove]; [apply law_here; intros; discriminate|].
      apply law_bind, law_here. intros w2 o' E. unfold hget in E. rewrite R1 in E. injection E as <- <-.
      apply law_bind, law_here. intros w2 u' E. unfold lift in E. rewrite U1 in E. injection E as <- <-.
      apply law_bind. unfold c_remove_item. apply law_bind, law_here. intros w2 ad E'. unfold get_adapter in E'. rewrite ED, (proj1 (G1 0)) in E'. injection E' as <- <-. rewrite (sd_store _ _ _ _ SD), T1.
      unfold law at 1. unfold cbind at 1. unfold cexists. cbn [cthen fst snd]. eapply lw_del.
      + reflexivity.
      + exists (e_type e), u. split; [reflexivity|]. exists e. split; [exact OC|]. split; [rewrite <- EA; reflexivity|exact NM].
      + constructor. cbn [fst snd]. change (Law (cbind (c_clear_adapter r) (fun _ => here (ret tt))) w1 (fun _ w' => goes n w w')). apply law_bind. eapply law_weaken; [apply (law_clear n); apply (G1 0)|]. intros y w2 H. apply law_here. intros w3 z E. injection E as <- _. eapply goes_trans; [apply G1|exact H].
      + constructor. exact I.
  Qed.

  (** ** An element *)
  Definition behaves (P : Prop) (k : option ref -> SM sstate bool) : Prop := forall parent s, good (ss_w s) ->
    Law (k parent) s (fun _ s' => goes (length (w_heap (ss_w s))) (ss_w s) (ss_w s') /\ (P -> ss_action s' = Some ADelete)).
  Lemma law_kids (P : Prop) ks : Forall (behaves P) ks -> forall parent b s, good (ss_w s) ->
    Law (c_run_kids ks parent b) s (fun _ s' => goes (length (w_heap (ss_w s))) (ss_w s) (ss_w s') /\ (P -> ss_action s = Some ADelete -> ss_action s' = Some ADelete)).
  Proof.
    induction 1 as [|k ks H _ IH]; intros parent b s G; cbn [c_run_kids].
    - apply law_here. intros s' x E. injection E as <- _. split; [now apply goes_refl|auto].
    - apply law_bind. eapply law_weaken; [now apply H|]. intros b1 s1 [G1 A1]. eapply law_weaken; [apply IH; apply G1|]. intros b2 s2 [G2 A2]. split.
      + eapply goes_trans; [exact G1|]. eapply goes_le; [|exact G2]. apply G1.
      + intros p _. apply A2; [exact p|]. now apply A1.
  Qed.
  Lemma law_body e ks : occurs e gs -> Forall (behaves (e_action e = Some ADelete)) ks -> behaves (e_action e = Some ADelete) (fun parent => c_sync_body env e parent ks).
  Proof.
    intros OC HK parent s G. set (n := length (w_heap (ss_w s))). unfold c_sync_body.
    apply law_bind, law_here. intros s1 ad E. unfold slift, get_adapter in E. rewrite ED, G in E. cbn [fst snd] in E. assert (s1 = s /\ ad = da) as [-> ->] by (destruct s; injection E as <- <-; auto). clear E.
    apply law_bind, law_here. intros s1 c E. unfold lift in E. destruct (dget (ad_classes da) (e_type e)) as [c'|] eqn:K; [|discriminate]. injection E as <- <-.
    destruct (sd_class _ _ _ _ SD _ _ K) as (MN & _ & _ & FG).
    apply law_bind, law_here. intros s1 x E. unfold modify in E. injection E as <- _. clear x.
    apply law_bind, law_here. intros s1 u E. unfold lift in E. injection E as <- U.
    apply law_bind, law_here. intros s1 x E. unfold modify in E. injection E as <- _. cbn [ss_w ss_n ss_class]. cbv zeta.
    set (attrs := match ad_plus (e_attrs_diffs e) with Some p => p | None => [] end).
    set (s1 := mkSS _ _ _ _ _). assert (W1 : ss_w s1 = ss_w s) by reflexivity. assert (A1 : ss_action s1 = e_action e) by reflexivity. assert (C1 : ss_class s1 = Some c') by reflexivity. clearbody s1.
    apply law_bind, law_s. rewrite W1. eapply lawful_weaken; [now apply always_gon|]. intros [w2 [y|]] [G2 (news & H2)]; cbn [fst snd] in *; [|exact I]. clear y.
    apply law_bind, law_s. cbn [ss_w set_ss_w]. eapply law_weaken; [apply (law_dst w2 (e_type e) c' (e_keys e) u G2 K U)|]. intros dm w3 LD.
    (* the loaded object *)
    assert (L2 : n <= length (w_heap w2)) by (rewrite H2, app_length; unfold n; lia).
    assert (G23 : forall m, goes m w2 w3).
    { intros m. destruct dm as [r|]; cbn [loaded] in LD; [|subst w3; now apply goes_refl]. destruct LD as (_ & o & -> & _). apply goes_grown. split; [exact G2|]. eexists. reflexivity. }
    assert (G3 : goes n (ss_w s) w3) by (eapply goes_trans; [apply goes_grown; split; [exact G2|exists news; exact H2]|apply G23]).
    assert (DM : forall r, dm = Some r -> n <= r /\ exists o, nth_error (w_heap w3) r = Some o /\ get_type o = e_type e /\ get_unique_id o = Ok u /\ ~ skips_children (o_flags o)).
    { intros r ->. cbn [loaded] in LD. destruct LD as (-> & o & -> & B1 & B2 & B3). split; [exact L2|]. exists o. cbn. now rewrite nth_error_app2, Nat.sub_diag by auto. }
    clear LD G23. apply law_bind, law_here. intros s4 natural E. unfold slift in E. destruct (model_flag dm MF_NATURAL_DELETION_ORDER (ss_w (set_ss_w (set_ss_w s1 w2) w3))) as [w4 y] eqn:FN. cbn [fst snd] in E. injection E as <- ->. apply flag_run in FN as (-> & NT).
    apply law_bind, law_here. intros s4 skip E. unfold slift in E. destruct (model_flag dm MF_SKIP_CHILDREN_ON_DELETE _) as [w4 y] eqn:FS. cbn [fst snd] in E. injection E as <- ->. apply flag_run in FS as (-> & SK).
    assert (skip = false) as ->.
    { subst skip. destruct dm as [r|]; [|reflexivity]. destruct (DM r eq_refl) as (_ & o & R & _ & _ & B3). cbn [ss_w set_ss_w]. rewrite R. now apply skip_off. }
    clear SK. cbn [ss_w set_ss_w] in *. set (s3 := set_ss_w (set_ss_w (set_ss_w (set_ss_w s1 w2) w3) w3) w3).
    assert (W3 : ss_w s3 = w3) by reflexivity. assert (A3 : ss_action s3 = e_action e) by exact A1. assert (C3 : ss_class s3 = Some c') by exact C1. clearbody s3. clear A1 C1 s1 W1.
    apply law_bind, law_here. intros s4 s4' E. injection E as <- <-.
    (* children first *)
    assert (KF : natural && is_delete (ss_action s3) && negb false = true -> ss_action s3 = Some ADelete) by (destruct natural; [|discriminate]; destruct (ss_action s3) as [[]|]; easy).
    apply law_bind. eapply law_weaken with (Q := fun _ s5 => goes (length (w_heap w3)) w3 (ss_w s5) /\ ss_action s5 = e_action e /\ (e_action e <> Some ADelete -> s5 = s3)).
    { destruct (natural && is_delete (ss_action s3) && negb false) eqn:B.
      - specialize (KF eq_refl). eapply law_weaken; [apply (law_kids _ ks HK); rewrite W3; apply G3|]. intros b s5 [G5 A5]. rewrite W3 in G5. rewrite A3 in KF. split; [exact G5|]. split; [rewrite A5; congruence|congruence].
      - apply law_here. intros s5 b E. injection E as <- _. rewrite W3. split; [apply goes_refl; apply G3|]. auto. }
    clear KF. intros b0 s5 (G5 & A5 & C5). clear b0.
    assert (DM5 : forall r, dm = Some r -> n <= r /\ r < length (w_heap (ss_w s5)) /\ exists o, nth_error (w_heap (ss_w s5)) r = Some o /\ get_type o = e_type e /\ get_unique_id o = Ok u).
    { intros r E. destruct (DM r E) as (B0 & o & R & B1 & B2 & _). split; [exact B0|]. assert (LR : r < length (w_heap w3)) by (apply nth_error_Some; congruence).
      destruct (goes_at _ _ _ r o _ _ G5 LR R B1 B2) as (o' & R' & B1' & B2' & _). split; [apply nth_error_Some; congruence|]. exists o'. auto. }
    assert (N3 : n <= length (w_heap w3)) by apply G3.
    apply law_bind, law_here. intros s6 cm E. apply (model_any n) in E as (G6 & A6 & S6 & R6); [|apply G5|intros r ->; now apply DM5]. rewrite A5 in *.
    assert (G06 : goes n (ss_w s) (ss_w s6)) by (eapply goes_trans; [exact G3|]; eapply goes_trans; [eapply goes_le; [exact N3|exact G5]|exact G6]).
    destruct (snd cm) as [r|] eqn:CM.
    2:{ apply law_here. intros s7 y E. unfold bind, slog, slift, emit, modify, get_state, ret in E. cbn in E. injection E as <- _. cbn [ss_w set_ss_w ss_action]. split; [|now rewrite A6].
        eapply goes_trans; [exact G06|]. apply goes_event. apply G06. }
    specialize (R6 r eq_refl). apply law_bind, law_here. intros s7 s7' E. injection E as <- <-. rewrite A6.
    apply law_bind, law_s. eapply law_weaken.
    - apply (law_apply n e c' u (e_action e) parent r (ss_w s6)); [apply G06|exact K|exact U|exact OC|reflexivity| |].
      + intros EA. rewrite EA in *. destruct R6 as (c & o & o1 & CL & CB & R & SB). rewrite (C5 ltac:(discriminate)), C3 in CL. injection CL as <-.
        destruct (create_base_spec _ _ _ _ _ _ CB U) as (OCL & OF & OU & _). exists o1. split; [exact R|].
        split; [rewrite (same_but_type _ _ _ SB); unfold get_type; rewrite OCL; exact MN|]. split; [intros u'; rewrite (same_but_uid _ _ _ SB); apply OU|].
        destruct SB as (_ & _ & SF & _). now rewrite SF, OF.
      + intros EA. rewrite EA in *. destruct (DM5 r R6) as (_ & LR & o & R & B1 & B2).
        destruct (goes_at (S r) _ _ r o _ _ (S6 ltac:(discriminate) (S r)) (Nat.lt_succ_diag_r r) R B1 B2) as (o' & R' & B1' & B2' & _). exists o'. auto.
    - intros stop w7 [-> G7]. assert (G07 : goes n (ss_w s) w7) by (eapply goes_trans; [exact G06|exact G7]).
      apply law_bind, law_here. intros s8 y E. apply incr_run in E as (N8 & A8 & _). cbn [ss_w set_ss_w ss_action] in N8, A8.
      assert (G08 : goes n (ss_w s) (ss_w s8)) by (eapply goes_trans; [exact G07|apply noted_goes; [apply G07|exact N8]]).
      destruct (negb natural || negb (is_delete (e_action e))).
      + eapply law_weaken; [apply (law_kids _ ks HK); apply G08|]. intros b s9 [G9 A9]. split.
        * eapply goes_trans; [exact G08|]. eapply goes_le; [|exact G9]. apply G08.
        * intros EA. apply A9; [exact EA|]. congruence.
      + apply law_here. intros s9 z E. injection E as <- _. split; [exact G08|]. intros EA. congruence.
  Qed.
  Lemma c_elem_eq e parent : c_sync_elem ord env e parent = c_sync_body env e parent (ordered ord (c_sync_elem ord env) (e_kids e)).
  Proof. destruct e; reflexivity. Qed.
  Lemma behaves_imp (P P' : Prop) k : (P' -> P) -> behaves P k -> behaves P' k.
  Proof. intros I H parent s G. eapply law_weaken; [now apply H|]. intros b s' [A B]. auto. Qed.
  Lemma law_elem e : occurs e gs -> behaves (e_action e = Some ADelete) (c_sync_elem ord env e).
  Proof.
    induction e as [e IH] using elem_ind'. intros OC parent s G. rewrite c_elem_eq. apply (law_body e _ OC); [|exact G].
    rewrite ordered_map. apply Forall_forall. intros k IK. apply in_map_iff in IK as (x & <- & IX). apply ordered_sub in IX. assert (OX := occurs_kid gs e x OC IX).
    eapply behaves_imp; [|apply In_children in IX as (t & g & m & I1 & I2); exact (IH t g m x I1 I2 OX)]. intros EA. now apply (DW e).
  Qed.
  Lemma law_run d w : gs = d_groups d -> ord = dc_order (d_class d) -> good w -> Lawful (fun _ => True) (c_run_sync env d w).
  Proof.
    intros EG EO G. unfold c_run_sync. unfold cbind. eapply lawful_then with (P := fun _ => True); [|intros [w1 [x|e]] _; now constructor].
    eapply lawful_then with (P := fun _ => True); [|intros x _; now constructor]. unfold c_perform_sync. rewrite <- EG, <- EO.
    eapply lawful_weaken; [apply (law_kids False)|auto]; [|exact G]. rewrite ordered_map. apply Forall_forall. intros k IK. apply in_map_iff in IK as (x & <- & IX). apply ordered_sub in IX.
    eapply behaves_imp; [|apply law_elem; apply In_children in IX as (t & g & m & I1 & I2); eapply occ_here; eauto]. easy.
  Qed.
End Run.

(** ** A whole call *)
Lemma cut_done {A B} (p : cprog A) (g : A -> B) d d1 q : many cstep (d, cthen p (fun x => Done (g x))) (d1, q) -> exists q', many cstep (d, p) (d1, q').
Proof.
  intros R. apply then_cut in R as [R|R]; [exact R|]. apply many_inv in R as [R|(s1 & H1 & _)]; [|inversion H1]. injection R as -> _. eexists. apply solo_is.
Qed.
Lemma issued_cut {A} (c : CM A) (f : A -> reply) w d d1 q : many cstep (d, cfmap f c w) (d1, q) -> exists q', many cstep (d, c w) (d1, q').
Proof.
  intros R. unfold cfmap, cbind in R. apply then_cut in R as [R|R]; [exact R|]. exists (Done (snd (solo d (c w)))).
  assert (X : d1 = fst (solo d (c w))); [|rewrite X; apply solo_is].
  apply many_inv in R as [R|(s1 & H1 & _)]; [now injection R as -> _|]. destruct (snd (solo d (c w))) as [w1 [x|e]]; inversion H1.
Qed.
Lemma issued_solo {A} (c : CM A) (f : A -> reply) w d : fst (solo d (cfmap f c w)) = fst (solo d (c w)).
Proof. unfold cfmap, cbind. rewrite solo_then. now destruct (snd (solo d (c w))) as [w1 [x|e]]. Qed.

Section Call.
  Variables (fuel : nat) (h : hooks) (dst src : aid) (dc : diffclass) (flags : N) (cb : bool) (given : option diff) (w : world) (d0 : dict obj).
  Hypothesis E0 : w_redis w = [].
  Notation prog := (c_sync_from fuel h dst src dc flags cb given w).
  Lemma diff_solo : solo d0 (c_diff_from fuel dst src dc flags cb w) =
    (d0, (set_redis (fst (diff_from fuel dst src dc flags cb (set_redis w d0))) [], snd (diff_from fuel dst src dc flags cb (set_redis w d0)))).
  Proof.
    rewrite (sim_diff fuel dst src dc flags cb w d0 E0). f_equal. destruct (diff_from_quiet fuel dst src dc flags cb (set_redis w d0)) as [(_ & X & _) _]. rewrite X. reflexivity.
  Qed.
  (** either no diff is applied, and nothing changes, or the run is that of a diff after reading *)
  Lemma sync_phases :
    ((forall dd, ~ uses fuel dst src dc flags cb given (set_redis w d0) dd) /\ forall d1 q, many cstep (d0, prog) (d1, q) -> d1 = d0) \/
    exists dd w1, uses fuel dst src dc flags cb given (set_redis w d0) dd /\
      (forall dd', uses fuel dst src dc flags cb given (set_redis w d0) dd' -> dd' = dd) /\
      (forall ad j, nth_error (w_ads w) dst = Some ad -> ad_store ad = SRedis j -> nth_error (w_ads w1) dst = Some ad) /\
      let run := c_run_sync (mkSEnv src dst flags (diff_len dd) cb h fuel) dd w1 in
      (forall d1 q, many cstep (d0, prog) (d1, q) -> d1 = d0 \/ exists q', many cstep (d0, run) (d1, q')) /\
      fst (solo d0 prog) = fst (solo d0 run).
  Proof.
    assert (CD : (given = None \/ exists d', given = Some d' /\ diff_len d' = 0) -> prog = cthen (c_diff_from fuel dst src dc flags cb w)
       (fun wx => match snd wx with Ok x => c_run_sync (mkSEnv src dst flags (diff_len x) cb h fuel) x (fst wx) | Err e => Done (fst wx, Err e) end)).
    { intros [-> |(d' & -> & L)]; [reflexivity|]. assert (T : diff_truthy (Some d') = false) by (cbn; now rewrite L). unfold c_sync_from. rewrite T. reflexivity. }
    assert (COMP : (given = None \/ exists d', given = Some d' /\ diff_len d' = 0) ->
      ((forall dd, ~ uses fuel dst src dc flags cb given (set_redis w d0) dd) /\ forall d1 q, many cstep (d0, prog) (d1, q) -> d1 = d0) \/
      exists dd w1, uses fuel dst src dc flags cb given (set_redis w d0) dd /\
      (forall dd', uses fuel dst src dc flags cb given (set_redis w d0) dd' -> dd' = dd) /\
      (forall ad j, nth_error (w_ads w) dst = Some ad -> ad_store ad = SRedis j -> nth_error (w_ads w1) dst = Some ad) /\
      let run := c_run_sync (mkSEnv src dst flags (diff_len dd) cb h fuel) dd w1 in
      (forall d1 q, many cstep (d0, prog) (d1, q) -> d1 = d0 \/ exists q', many cstep (d0, run) (d1, q')) /\
      fst (solo d0 prog) = fst (solo d0 run)).
    { intros NG. pose proof diff_solo as DS. rewrite (CD NG). clear CD. destruct (diff_from_quiet fuel dst src dc flags cb (set_redis w d0)) as [RO _]. cbv zeta in RO.
      assert (UD : forall dd, uses fuel dst src dc flags cb given (set_redis w d0) dd <-> snd (diff_from fuel dst src dc flags cb (set_redis w d0)) = Ok dd).
      { intros dd. unfold uses. split; [|now right]. intros [(X & Y & _)|(_ & X)]; [|exact X]. destruct NG as [NG|(d' & NG & L)]; congruence. }
      destruct (diff_from fuel dst src dc flags cb (set_redis w d0)) as [w1 [dd|e]]; cbn [fst snd] in *.
      - right. exists dd, (set_redis w1 []). split; [now apply UD|]. split; [intros dd' X; apply UD in X; congruence|]. split.
        + intros ad j NA SA. destruct (read_only_ad _ _ _ _ RO NA) as (s & H & X). rewrite SA in X. destruct s as [|j']; [destruct X|]. cbn in X. subst j'. cbn [set_redis w_ads] in *. rewrite H. f_equal. destruct ad. cbn in *. now subst.
        + cbv zeta. split.
          * intros d1 q R. apply then_cut in R as [(q' & R)|R]; [left; now apply (silent_cut _ (cread_diff fuel dst src dc flags cb w)) in R as [-> _]|]. rewrite DS in R. cbn [fst snd] in R. right. now exists q.
          * rewrite solo_then, DS. reflexivity.
      - left. split; [intros dd X; apply UD in X; discriminate|]. intros d1 q R. apply then_cut in R as [(q' & R)|R]; [now apply (silent_cut _ (cread_diff fuel dst src dc flags cb w)) in R as [-> _]|].
        rewrite DS in R. cbn [fst snd] in R. apply many_inv in R as [R|(s1 & H1 & _)]; [now injection R as -> _|inversion H1]. }
    clear CD. destruct given as [dg|]; [|apply COMP; now left]. destruct (Nat.eq_dec (diff_len dg) 0) as [Z|NZ]; [apply COMP; right; eauto|]. clear COMP.
    assert (T : diff_truthy (Some dg) = true) by now apply truthy_len. unfold c_sync_from. rewrite T. destruct (isinstance dg dc) eqn:EI; cbn [andb negb].
    - right. exists dg, w. split; [left; auto|]. split.
      + intros dd' [(X & _)|([X|(d' & X & L)] & _)]; congruence.
      + split; [auto|]. cbv zeta. split; [|reflexivity]. intros d1 q R. right. exists q. exact R.
    - left. split.
      + intros dd [(X & _ & Y)|([X|(d' & X & L)] & _)]; congruence.
      + intros d1 q R. cbn in R. apply many_inv in R as [R|(s1 & H1 & _)]; [now injection R as -> _|inversion H1].
  Qed.
End Call.

Lemma cut_nothing fuel h dst src dc flags cb given w d0 d1 q : w_redis w = [] ->
  (forall dd, ~ uses fuel dst src dc flags cb given (set_redis w d0) dd) ->
  many cstep (d0, issued dst (KSync fuel h src dc flags cb given) w) (d1, q) -> d1 = d0.
Proof.
  intros E0 N R. apply issued_cut in R as (q' & R). destruct (sync_phases fuel (unseeing h) dst src dc flags cb given w d0 E0) as [(_ & H)|(dd & w1 & U & _)]; [exact (H _ _ R)|]. now apply N in U.
Qed.
Lemma cut_sync fuel h dst src dc flags cb given w d0 da i dd d1 q k : w_redis w = [] -> server_dst (set_redis w d0) dst da i ->
  uses fuel dst src dc flags cb given (set_redis w d0) dd -> deletes_whole (d_groups dd) -> no_moves (set_redis w d0) dst (d_groups dd) ->
  many cstep (d0, issued dst (KSync fuel h src dc flags cb given) w) (d1, q) ->
  let w2 := fst (ConcSpec.made dst (KSync fuel h src dc flags cb given) (set_redis w d0)) in
  dget d1 k = dget d0 k \/
  (dget d1 k = dget (w_redis w2) k /\ exists t u, k = redis_key i t u /\
    ((mentioned w dst (d_groups dd) is_create_act (t, u) /\ dget d0 k = None) \/ (mentioned w dst (d_groups dd) is_delete_act (t, u) /\ dget d1 k = None))).
Proof.
  intros E0 SD U DW NM R w2. pose proof (sim_call dst (KSync fuel h src dc flags cb given) w d0 E0) as SC. apply (f_equal fst) in SC. cbn [fst issued] in SC. rewrite issued_solo in SC. fold w2 in SC.
  apply issued_cut in R as (q' & R). destruct (sync_phases fuel (unseeing h) dst src dc flags cb given w d0 E0) as [(N & _)|(dd' & w1 & _ & UU & AD & C & F)]; [now apply N in U|].
  apply UU in U. subst dd'. clear UU. destruct (C _ _ R) as [->|(q2 & R2)]; [now left|]. clear C R. rewrite <- SC, F. clear SC F.
  set (w0 := set_redis w d0) in *. set (env := mkSEnv src dst flags (diff_len dd) cb (unseeing h) fuel) in *. set (gs := d_groups dd) in *.
  assert (CDX : forall k, to_create w0 dst i gs k -> to_delete w0 dst i gs k -> False).
  { intros k0 (t & u & -> & M) (t' & u' & E & M'). assert (KN : forall P t u, mentioned w0 dst gs P (t, u) -> RedisSpec.plain t = true).
    { intros P t1 u1 (e & _ & _ & ad & c & NA & K & TT & _). rewrite (sd_ad _ _ _ _ SD) in NA. injection NA as <-. destruct (sd_class _ _ _ _ SD _ _ K) as (MN & P1 & _). cbn in TT. congruence. }
    destruct (key_inj _ _ _ _ _ _ (sd_id _ _ _ _ SD) (KN _ _ _ M) (sd_id _ _ _ _ SD) (KN _ _ _ M') E) as (_ & <- & <-). exact (NM (t, u) M M'). }
  assert (FD : fit (filed_at da i) d0).
  { split; [exact (sd_once _ _ _ _ SD)|]. intros k0 o G t c u K ->. exact (sd_filed _ _ _ _ SD t c u o K G). }
  assert (LW : lawful (filed_at da i) (to_create w0 dst i gs) (to_delete w0 dst i gs) (fun _ => True) (c_run_sync env dd w1)).
  { apply (law_run w0 dst da i env (dc_order (d_class dd)) gs); try reflexivity; [exact SD|exact DW|]. unfold good. exact (AD da i (sd_ad _ _ _ _ SD) (sd_store _ _ _ _ SD)). }
  destruct (lawful_cut _ _ _ CDX _ _ LW _ _ _ FD R2) as [A B]. destruct (lawful_mid _ _ CDX _ _ _ k A B) as [X|(X & [((t & u & K & M) & Y)|((t & u & K & M) & Y)])]; [now left| |]; right; (split; [exact X|]); exists t, u; (split; [exact K|]); [left|right]; (split; [exact M|exact Y]).
Qed.

(** ** One process writes, the others only read *)
Lemma silent_step {A} (p : cprog A) d s : silent p -> cstep (d, p) s -> fst s = d /\ silent (snd s).
Proof. intros H R. inversion H; subst; inversion R; subst; cbn [fst snd]; auto. Qed.
Lemma beside {A} n s s' : many (@sys_step A) s s' -> forall p, nth_error (snd s) n = Some p ->
  (forall m p', m <> n -> nth_error (snd s) m = Some p' -> silent p') -> exists q, nth_error (snd s') n = Some q /\ many cstep (fst s, p) (fst s', q).
Proof.
  induction 1 as [s|s s1 s2 H _ IH]; intros p N S; [exists p; split; [exact N|apply many_none]|].
  inversion H as [d d' ps m q q' NM ST E1 E2]. subst s s1. cbn [fst snd] in *. destruct (Nat.eq_dec m n) as [->|NE].
  - rewrite N in NM. injection NM as <-. destruct (IH q') as (r & NR & R).
    + now rewrite (nth_list_set_eq _ _ _ _ N).
    + intros m p' NE. rewrite nth_list_set_neq by auto. now apply S.
    + exists r. split; [exact NR|]. eapply many_more; [exact ST|exact R].
  - destruct (silent_step _ _ _ (S m q NE NM) ST) as [E SQ]. cbn [fst snd] in *. subst d'. apply IH.
    + rewrite nth_list_set_neq by auto. exact N.
    + intros m' p' NE'. destruct (Nat.eq_dec m' m) as [->|NE2]; [rewrite (nth_list_set_eq _ _ _ _ NM); intros E; now injection E as <-|rewrite nth_list_set_neq by auto; now apply S].
Qed.
Lemma silent_call a c w : only_reads c -> silent (issued a c w).
Proof.
  intros N. assert (X : cread (issued a c)); [|apply X]. destruct c; try (now destruct N); cbn [issued]; (apply cread_bind; [|intros ?; apply cread_here]);
    [apply cread_get|apply cread_gon|apply cread_get_all|apply cread_by_uids|apply cread_names|apply cread_count|apply cread_here|apply cread_here|apply cread_diff].
Qed.
Lemma silent_history l : Forall (fun ac => only_reads (snd ac)) l -> forall w, silent (issued_all l w).
Proof.
  induction 1 as [|[a c] l H _ IH]; intros w; cbn [issued_all]; [constructor|]. apply silent_then; [now apply silent_call|]. intros wx. apply silent_then; [apply IH|]. intros ?. constructor.
Qed.
Lemma readers ps d d' qs n p : many sys_step (d, map started ps) (d', qs) -> nth_error ps n = Some p ->
  (forall m p', m <> n -> nth_error ps m = Some p' -> Forall (fun ac => only_reads (snd ac)) (pr_calls p')) ->
  exists q, nth_error qs n = Some q /\ many cstep (d, started p) (d', q).
Proof.
  intros R N S. destruct (beside n _ _ R (started p)) as (q & NQ & RQ); cbn [fst snd] in *; [now rewrite nth_error_map, N| |now exists q].
  intros m p' NE. rewrite nth_error_map. destruct (nth_error ps m) as [p1|] eqn:M; [|discriminate]. cbn. intros E. injection E as <-. apply silent_history. now apply (S m).
Qed.
Lemma readers_done ps d d' qs n p w' rs : many sys_step (d, map started ps) (d', qs) -> nth_error ps n = Some p -> w_redis (pr_world p) = [] ->
  (forall m p', m <> n -> nth_error ps m = Some p' -> Forall (fun ac => only_reads (snd ac)) (pr_calls p')) ->
  nth_error qs n = Some (Done (w', rs)) ->
  let run := made_all (pr_calls p) (set_redis (pr_world p) d) in rs = snd run /\ w' = set_redis (fst run) [] /\ d' = w_redis (fst run).
Proof.
  intros R N E S Q. destruct (readers _ _ _ _ _ _ R N S) as (q & NQ & RQ). rewrite Q in NQ. injection NQ as <-. apply solo_runs in RQ. cbn [fst snd solo] in RQ. unfold started in RQ.
  rewrite (history_alone _ _ _ E) in RQ. cbv zeta. injection RQ as -> -> ->. auto.
Qed.
