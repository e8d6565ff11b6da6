(** * ConcSystem: processes that keep to their own keys do not influence each other. *)
From Coq Require Import Ascii Lia.
From Verif Require Export ConcSync ModelFacts.
From Verif Require Import DiffFacts.

(** ** Programs that keep to the keys [P] *)
Fixpoint confined {A} (P : string -> bool) (Q : A -> Prop) (p : cprog A) : Prop :=
  match p with
  | Done x => Q x
  | CGet k f => P k = true /\ forall x, confined P Q (f x)
  | CSet k o p => P k = true /\ confined P Q p
  | CExists k f => P k = true /\ forall x, confined P Q (f x)
  | CDelete k p => P k = true /\ confined P Q p
  | CScan pat f => (forall s, glob pat s = true -> P s = true) /\ forall x, Forall (fun s => P s = true) x -> confined P Q (f x)
  end.
Lemma confined_then {A B} P (Q : A -> Prop) (R : B -> Prop) g : (forall x, Q x -> confined P R (g x)) -> forall p, confined P Q p -> confined P R (cthen p g).
Proof. intros H. induction p as [x|k f IH|k o p IH|k f IH|k p IH|pat f IH]; cbn [confined cthen]; [apply H| | | | |]; intros (A0 & X); (split; [exact A0|]); auto. Qed.
Lemma confined_any {A} P (Q R : A -> Prop) : (forall x, Q x -> R x) -> forall p, confined P Q p -> confined P R p.
Proof. intros H. induction p as [x|k f IH|k o p IH|k f IH|k p IH|pat f IH]; cbn [confined]; [apply H| | | | |]; intros (A0 & X); (split; [exact A0|]); auto. Qed.

(** the part of the server they see *)
Definition part (P : string -> bool) (d : dict obj) : dict obj := filter (fun kv => P (fst kv)) d.
Lemma part_get P d k : P k = true -> dget (part P d) k = dget d k.
Proof.
  intros H. unfold part. induction d as [|[x o] d IH]; [reflexivity|]. cbn [filter fst]. destruct (P x) eqn:E; cbn [dget].
  - destruct (String.eqb k x); [reflexivity|exact IH].
  - destruct (String.eqb_spec k x); [congruence|exact IH].
Qed.
Lemma part_set P d k o : part P (dset d k o) = if P k then dset (part P d) k o else part P d.
Proof.
  unfold part. induction d as [|[x y] d IH]; cbn [dset filter fst]; [destruct (P k); reflexivity|].
  destruct (String.eqb_spec k x) as [->|N]; cbn [filter fst].
  - destruct (P x); cbn [dset]; [now rewrite String.eqb_refl|reflexivity].
  - rewrite IH. destruct (P x); [|reflexivity]. destruct (P k); [|reflexivity]. cbn [dset]. destruct (String.eqb_spec k x); [congruence|reflexivity].
Qed.
Lemma part_del P d k : part P (ddel d k) = if P k then ddel (part P d) k else part P d.
Proof.
  unfold part. induction d as [|[x y] d IH]; cbn [ddel filter fst]; [destruct (P k); reflexivity|].
  destruct (String.eqb_spec k x) as [->|N]; cbn [filter fst].
  - destruct (P x) eqn:E; cbn [ddel]; [now rewrite String.eqb_refl|reflexivity].
  - rewrite IH. destruct (P x); [|reflexivity]. destruct (P k); [|reflexivity]. cbn [ddel]. destruct (String.eqb_spec k x); [congruence|reflexivity].
Qed.
Lemma part_scan P d g : (forall s, g s = true -> P s = true) -> filter g (dkeys (part P d)) = filter g (dkeys d).
Proof.
  intros H. unfold part, dkeys. induction d as [|[x y] d IH]; [reflexivity|]. cbn [filter fst map]. destruct (P x) eqn:E; cbn [map filter fst].
  - destruct (g x); now rewrite IH.
  - destruct (g x) eqn:G; [apply H in G; congruence|exact IH].
Qed.

(** one's own command gives the same on servers that agree on one's keys *)
Lemma own_step {A} P (p : cprog A) d d' p' e : confined P (fun _ => True) p -> part P d = part P e -> cstep (d, p) (d', p') ->
  exists e', cstep (e, p) (e', p') /\ part P d' = part P e' /\ confined P (fun _ => True) p'.
Proof.
  intros C E H. inversion H; subst; cbn [confined] in C; destruct C as (K & C).
  - exists e. rewrite <- (part_get P d' k K), E, (part_get P e k K). split; [constructor|auto].
  - exists (dset e k o). split; [constructor|]. rewrite !part_set, E. auto.
  - exists e. rewrite <- (part_get P d' k K), E, (part_get P e k K). split; [constructor|auto].
  - exists (ddel e k). split; [constructor|]. rewrite !part_del, E. auto.
  - exists e. rewrite <- (part_scan P d' (glob pat) K), E, (part_scan P e (glob pat) K). split; [constructor|]. split; [congruence|]. apply C, Forall_forall. intros s I. apply filter_In in I as (_ & I). now apply K.
Qed.
(** another's command changes nothing of one's own *)
Lemma other_step {A} P O (p : cprog A) d d' p' : confined O (fun _ => True) p -> (forall k, O k = true -> P k = false) -> cstep (d, p) (d', p') -> part P d' = part P d.
Proof.
  intros C D H. inversion H; subst; cbn [confined] in C; destruct C as (K & C); try reflexivity; [rewrite part_set|rewrite part_del]; now rewrite (D k K).
Qed.
Definition separate (Ps : list (string -> bool)) : Prop :=
  forall n m P O, n <> m -> nth_error Ps n = Some P -> nth_error Ps m = Some O -> forall k, O k = true -> P k = false.
Lemma kept_apart {A} Ps (s s' : dict obj * list (cprog A)) : many sys_step s s' -> separate Ps ->
  (forall n P p, nth_error Ps n = Some P -> nth_error (snd s) n = Some p -> confined P (fun _ => True) p) -> length Ps = length (snd s) ->
  length (snd s') = length (snd s) /\
  (forall n P p, nth_error Ps n = Some P -> nth_error (snd s) n = Some p -> forall e, part P (fst s) = part P e ->
     exists p' e', nth_error (snd s') n = Some p' /\ many cstep (e, p) (e', p') /\ part P (fst s') = part P e') /\
  (forall O, (forall n P k, nth_error Ps n = Some P -> P k = true -> O k = false) -> part O (fst s') = part O (fst s)).
Proof.
  intros R SP. induction R as [s|s s1 s2 H R IH]; intros C L.
  - split; [reflexivity|]. split; [|reflexivity]. intros n P p NP NN e E. exists p, e. split; [exact NN|]. split; [apply many_none|exact E].
  - destruct H as [d d' ps n p p' NP ST]. cbn [fst snd] in *.
    assert (X : exists P, nth_error Ps n = Some P).
    { destruct (nth_error Ps n) as [P|] eqn:E; [eauto|]. apply nth_error_None in E. assert (Y : nth_error ps n <> None) by congruence. apply nth_error_Some in Y. lia. }
    destruct X as (P & NPs). pose proof (C n P p NPs NP) as CP.
    destruct (own_step P p d d' p' d CP eq_refl ST) as (d0 & _ & _ & CP').
    destruct IH as (L' & IH & IHO).
    { intros m Q q MQ MN. destruct (Nat.eq_dec n m) as [<-|NE].
      - rewrite (nth_list_set_eq ps n p' p NP) in MN. injection MN as <-. assert (Q = P) by congruence. now subst Q.
      - rewrite nth_list_set_neq in MN by congruence. now apply (C m). }
    { now rewrite list_set_length. }
    rewrite list_set_length in L'. split; [exact L'|]. split.
    + intros m Q q MQ MN e E. destruct (Nat.eq_dec n m) as [<-|NE].
      * assert (Q = P) by congruence. assert (q = p) by congruence. subst Q q. destruct (own_step P p d d' p' e CP E ST) as (e1 & S1 & E1 & _).
        destruct (IH n P p' NPs (nth_list_set_eq ps n p' p NP) e1 E1) as (p2 & e2 & N2 & R2 & E2). exists p2, e2. split; [exact N2|]. split; [|exact E2]. eapply many_more; [exact S1|exact R2].
      * apply (IH m Q q MQ); [now rewrite nth_list_set_neq by congruence|]. rewrite (other_step Q P p d d' p' CP); [exact E| |exact ST]. apply (SP m n Q P); auto.
    + intros O HO. rewrite (IHO O HO). apply (other_step O P p d d' p' CP); [|exact ST]. intros k K. now apply (HO n P).
Qed.

(** ** The programs of the store methods keep to their store *)
Lemma prefix_app p s : String.prefix p (p ++ s) = true.
Proof. induction p as [|c p IH]; [now destruct s|]. cbn. destruct (Ascii.ascii_dec c c); [exact IH|congruence]. Qed.
Lemma prefix_starts p : forall s, String.prefix p s = starts p s.
Proof.
  induction p as [|c p IH]; intros [|c' s]; try reflexivity. cbn [String.prefix starts]. destruct (Ascii.ascii_dec c c') as [<-|N]; [rewrite Ascii.eqb_refl; apply IH|].
  destruct (Ascii.eqb_spec c c'); [congruence|reflexivity].
Qed.
Lemma glob_literal p q : literal p = true -> forall s, glob (p ++ q) s = true -> starts p s = true.
Proof.
  induction p as [|c p IH]; intros L s G; [reflexivity|]. cbn [literal] in L. apply andb_prop in L as [L1 L2]. change (String c p ++ q)%string with (String c (p ++ q)) in G.
  rewrite glob_cons in G. rewrite (special_not c "*"%char L1), (special_not c "?"%char L1), (special_not c "["%char L1), (special_not c "\"%char L1) in G by (cbn; auto).
  destruct s as [|x s]; [discriminate|]. cbn [starts]. apply andb_prop in G as [G1 G2]. now rewrite G1, (IH L2).
Qed.
Lemma label_literal i : plain i = true -> literal (store_label i ++ ":") = true.
Proof. intros P. unfold store_label. rewrite !literal_app, (plain_literal i P). reflexivity. Qed.
Lemma scan_in i q : plain i = true -> forall s, glob (store_label i ++ ":" ++ q)%string s = true -> in_store i s = true.
Proof. intros P s G. unfold in_store. rewrite prefix_starts. rewrite <- append_assoc in G. exact (glob_literal _ q (label_literal i P) s G). Qed.
Lemma key_in i t u : in_store i (redis_key i t u) = true.
Proof. unfold in_store, redis_key. rewrite <- append_assoc. apply prefix_app. Qed.
Lemma starts_elim p : forall s, starts p s = true -> exists x, s = (p ++ x)%string.
Proof.
  induction p as [|c p IH]; intros s H; [now exists s|]. destruct s as [|d s]; [discriminate|]. cbn [starts] in H. apply andb_prop in H as [E H]. apply Ascii.eqb_eq in E. subst d.
  destruct (IH s H) as (x & ->). now exists x.
Qed.
Lemma stores_apart i j k : plain i = true -> plain j = true -> i <> j -> in_store i k = true -> in_store j k = false.
Proof.
  intros P Q NE H. destruct (in_store j k) eqn:H'; [|reflexivity]. exfalso. apply NE. unfold in_store in *. rewrite prefix_starts in H, H'.
  apply starts_elim in H as (x & ->). apply starts_elim in H' as (y & E). unfold store_label in E. rewrite !append_assoc in E. apply app_inj in E.
  change (":" ++ x)%string with (String ":"%char x) in E. change (":" ++ y)%string with (String ":"%char y) in E. now apply (colon_inj i j x y P Q) in E as (-> & _).
Qed.

Lemma keys_in ids i t u : In i ids -> in_stores ids (redis_key i t u) = true.
Proof. intros I. apply existsb_exists. exists i. split; [exact I|apply key_in]. Qed.
Lemma stores_separate is js k : (forall i, In i is -> plain i = true) -> (forall j, In j js -> plain j = true) -> (forall i, In i is -> ~ In i js) ->
  in_stores is k = true -> in_stores js k = false.
Proof.
  intros P Q D H. apply existsb_exists in H as (i & I & H). destruct (in_stores js k) eqn:E; [|reflexivity]. apply existsb_exists in E as (j & J & E).
  rewrite (stores_apart i j k) in E; [discriminate|auto|auto| |exact H]. intros ->. exact (D j I J).
Qed.
Definition owned (ids : list string) (w : world) : Prop := forall ad j, In ad (w_ads w) -> ad_store ad = SRedis j -> In j ids.
Section Tame.
  Context (ids : list string) (PL : forall i, In i ids -> plain i = true).
  Lemma scans_in i q : In i ids -> forall s, glob (store_label i ++ ":" ++ q)%string s = true -> in_stores ids s = true.
  Proof. intros I s G. apply existsb_exists. exists i. split; [exact I|]. exact (scan_in i q (PL i I) s G). Qed.
  Definition tame {A} (c : CM A) : Prop := forall w, owned ids w -> confined (in_stores ids) (fun wx : world * result A => owned ids (fst wx)) (c w).
  Definition keeps {A} (m : M world A) : Prop := forall w, owned ids w -> owned ids (fst (m w)).
  Lemma tame_here {A} (m : M world A) : keeps m -> tame (here m).
  Proof. intros K w O. cbn [here confined]. now apply K. Qed.
  Lemma tame_bind {A B} (c : CM A) (k : A -> CM B) : tame c -> (forall x, tame (k x)) -> tame (cbind c k).
  Proof.
    intros H K w O. unfold cbind. eapply confined_then; [|exact (H w O)]. intros [w1 [x|e]] O1; cbn [fst snd] in *; [now apply K|exact O1].
  Qed.
  Lemma tame_try {A} (c : CM A) p h : tame c -> (forall e, tame (h e)) -> tame (ctry c p h).
  Proof.
    intros H K w O. unfold ctry. eapply confined_then; [|exact (H w O)]. intros [w1 [x|e]] O1; cbn [fst snd] in *; [exact O1|]. destruct (p e); [now apply K|exact O1].
  Qed.
  Lemma keeps_bind {A B} (m : M world A) (k : A -> M world B) : keeps m -> (forall x, keeps (k x)) -> keeps (bind m k).
  Proof. intros H K w O. unfold bind. specialize (H w O). destruct (m w) as [w1 [x|e]]; cbn [fst] in *; [now apply K|exact H]. Qed.
  Lemma keeps_same {A} (m : M world A) : (forall w, w_ads (fst (m w)) = w_ads w) -> keeps m.
  Proof. intros H w O. unfold owned. now rewrite H. Qed.
  Lemma keeps_put a d : keeps (put_store a (SLocal d)).
  Proof.
    intros w O ad j I E. unfold put_store, modify in I. cbn [fst] in I. destruct (nth_error (w_ads w) a) as [x|] eqn:N; [|exact (O ad j I E)]. cbn [w_ads set_ads] in I.
    apply In_nth_error in I as (n & I). rewrite nth_list_set in I. destruct (Nat.eqb n a) eqn:Q.
    - destruct (n <? length (w_ads w)); [injection I as <-; discriminate E|discriminate].
    - apply nth_error_In in I. exact (O ad j I E).
  Qed.
  Lemma tame_for {A} (l : list A) f : (forall x, tame (f x)) -> tame (cforM l f).
  Proof. intros H. induction l as [|x l IH]; cbn [cforM]; [apply tame_here, keeps_same; reflexivity|]. apply tame_bind; [apply H|]. now intros _. Qed.
  Lemma tame_map {A B} (f : A -> CM B) l : (forall x, tame (f x)) -> tame (cmapM f l).
  Proof.
    intros H. induction l as [|x l IH]; cbn [cmapM]; [apply tame_here, keeps_same; reflexivity|]. apply tame_bind; [apply H|]. intros y. apply tame_bind; [exact IH|].
    intros ys. apply tame_here, keeps_same; reflexivity.
  Qed.
  Lemma tame_adapter {A} a (k : adapter -> CM A) : (forall ad, (forall j, ad_store ad = SRedis j -> In j ids) -> tame (k ad)) -> tame (cbind (here (get_adapter a)) k).
  Proof.
    intros H w O. unfold cbind, here, get_adapter. cbn [cthen]. destruct (nth_error (w_ads w) a) as [ad|] eqn:N; cbn [fst snd]; [|exact O]. apply H; [|exact O].
    intros j E. apply (O ad j); [now apply nth_error_In in N|exact E].
  Qed.
  Lemma tame_get k : in_stores ids k = true -> tame (cget k). Proof. intros H w O. cbn. auto. Qed.
  Lemma tame_set k o : in_stores ids k = true -> tame (cset k o). Proof. intros H w O. cbn. auto. Qed.
  Lemma tame_exists k : in_stores ids k = true -> tame (cexists k). Proof. intros H w O. cbn. auto. Qed.
  Lemma tame_delete k : in_stores ids k = true -> tame (cdelete k). Proof. intros H w O. cbn. auto. Qed.
  Lemma tame_scan i q : In i ids -> tame (cscan (store_label i ++ ":" ++ q)%string). Proof. intros I w O. cbn [cscan confined]. split; [exact (scans_in i q I)|intros l F; exact O]. Qed.
  Lemma tame_load a i t u : In i ids -> tame (c_load a (redis_key i t u)).
  Proof. intros I. apply tame_bind; [now apply tame_get, keys_in|]. intros [o|]; apply tame_here, keeps_same; reflexivity. Qed.
  Lemma tame_load_key a k : in_stores ids k = true -> tame (c_load a k).
  Proof. intros H. apply tame_bind; [now apply tame_get|]. intros [o|]; apply tame_here, keeps_same; reflexivity. Qed.

  Ltac keeps_tac := repeat match goal with
    | |- keeps (bind _ _) => apply keeps_bind; [|intros ?]
    | |- keeps (put_store _ (SLocal _)) => apply keeps_put
    | |- keeps (ret _) => apply keeps_same; reflexivity
    | |- keeps (raise _) => apply keeps_same; reflexivity
    | |- keeps (lift _) => apply keeps_same; reflexivity
    | |- keeps (hget ?r) => apply keeps_same; intros w; unfold hget; now destruct (nth_error (w_heap w) r)
    | |- keeps (hset _ _) => apply keeps_same; reflexivity
    | |- keeps (halloc _) => apply keeps_same; reflexivity
    | |- keeps (emit _) => apply keeps_same; reflexivity
    | |- keeps (mutate _ _) => unfold mutate
    | |- keeps (match ?x with _ => _ end) => destruct x
    end.
  Ltac tame1 := apply tame_bind; [apply tame_here; keeps_tac|intros ?].
  Lemma tame_names a : tame (c_get_all_model_names a).
  Proof.
    apply tame_adapter. intros ad H. destruct (ad_store ad) as [s|j]; [apply tame_here; keeps_tac|]. pose proof (H j eq_refl) as HJ. apply tame_bind; [now apply tame_scan|]. intros l. apply tame_here. keeps_tac.
  Qed.
  Lemma tame_get_obj a m x : tame (c_get a m x).
  Proof. apply tame_adapter. intros ad H. cbv zeta. tame1. destruct (ad_store ad) as [s|j]; [apply tame_here; keeps_tac|]. pose proof (H j eq_refl) as HJ. now apply tame_load. Qed.
  Lemma tame_loads {A} i q (k : list string -> CM A) : In i ids -> (forall l, Forall (fun s => in_stores ids s = true) l -> tame (k l)) -> tame (cbind (cscan (store_label i ++ ":" ++ q)%string) k).
  Proof. intros I H w O. unfold cbind, cscan. cbn [cthen confined fst snd]. split; [exact (scans_in i q I)|]. intros l F. now apply H. Qed.
  Lemma tame_map_in {A B} (P : A -> Prop) (f : A -> CM B) l : (forall x, P x -> tame (f x)) -> Forall P l -> tame (cmapM f l).
  Proof.
    intros H F. induction F as [|x l PX F IH]; cbn [cmapM]; [apply tame_here; keeps_tac|]. apply tame_bind; [now apply H|]. intros y. apply tame_bind; [exact IH|]. intros ys. apply tame_here. keeps_tac.
  Qed.
  Lemma tame_get_all a m : tame (c_get_all a m).
  Proof.
    apply tame_adapter. intros ad H. destruct (ad_store ad) as [s|j]; [apply tame_here; keeps_tac|]. pose proof (H j eq_refl) as HJ. apply tame_loads; [exact HJ|]. intros l F.
    apply (tame_map_in (fun s => in_stores ids s = true)); [|exact F]. intros k K. now apply tame_load_key.
  Qed.
  Lemma tame_by_uids a us m : tame (c_get_by_uids a us m).
  Proof. apply tame_map. intros u. apply tame_adapter. intros ad H. destruct (ad_store ad) as [s|j]; [apply tame_here; keeps_tac|]. pose proof (H j eq_refl) as HJ. now apply tame_load. Qed.
  Lemma tame_count_all a : tame (c_count_all a).
  Proof.
    intros w O. unfold c_count_all. destruct (nth_error (w_ads w) a) as [ad|] eqn:N; [|exact O]. destruct (ad_store ad) as [s|j] eqn:E; [exact O|].
    apply nth_error_In in N. cbn [confined]. split; [exact (scans_in j "*" (O ad j N E))|]. intros l _. exact O.
  Qed.
  Lemma tame_count a m : tame (c_count a m).
  Proof.
    apply tame_adapter. intros ad H. destruct (ad_store ad) as [s|j].
    - destruct m as [[n|c]|]; [destruct n as [|b n]; [apply tame_count_all|]| |apply tame_count_all]; apply tame_here; keeps_tac.
    - pose proof (H j eq_refl) as HJ. destruct m as [m'|]; [|apply tame_count_all]. apply tame_bind; [now apply tame_scan|]. intros l. apply tame_here. keeps_tac.
  Qed.
  Lemma tame_truthy x : tame (c_truthy x).
  Proof. destruct x as [b|]; cbn [c_truthy]; [|apply tame_here; keeps_tac]. apply tame_bind; [apply tame_count_all|]. intros n. apply tame_here. keeps_tac. Qed.
  Lemma tame_add a r : tame (c_add a r).
  Proof.
    unfold c_add. tame1. tame1. cbv zeta. apply tame_adapter. intros ad H. destruct (ad_store ad) as [s|j].
    - tame1. destruct (dget (bucket s (get_type x)) x0) as [r'|]; [apply tame_here; keeps_tac|]. apply tame_bind; [apply tame_truthy|]. intros b.
      apply tame_bind; [destruct b; apply tame_here; keeps_tac|]. intros _. apply tame_here. keeps_tac.
    - pose proof (H j eq_refl) as HJ. apply tame_bind; [now apply tame_get, keys_in|]. intros [e|]; [apply tame_here; keeps_tac|]. now apply tame_set, keys_in.
  Qed.
  Lemma tame_update a r : tame (c_update a r).
  Proof.
    unfold c_update. tame1. tame1. cbv zeta. apply tame_adapter. intros ad H. destruct (ad_store ad) as [s|j]; [apply tame_here; keeps_tac|]. pose proof (H j eq_refl) as HJ. now apply tame_set, keys_in.
  Qed.
  Lemma tame_remove_item a t u : tame (c_remove_item a t u).
  Proof.
    apply tame_adapter. intros ad H. destruct (ad_store ad) as [s|j]; [apply tame_here; keeps_tac|]. pose proof (H j eq_refl) as HJ. apply tame_bind; [now apply tame_exists, keys_in|].
    intros []; [now apply tame_delete, keys_in|apply tame_here; keeps_tac].
  Qed.
  Lemma tame_clear r : tame (c_clear_adapter r).
  Proof. unfold c_clear_adapter. tame1. apply tame_bind; [apply tame_truthy|]. intros []; apply tame_here; keeps_tac. Qed.
  Lemma tame_remove fuel a rc : forall r, tame (c_remove fuel a r rc).
  Proof.
    induction fuel as [|fuel IH]; intros r; cbn [c_remove]; [apply tame_here; keeps_tac|]. tame1. tame1. apply tame_bind; [apply tame_remove_item|]. intros _.
    apply tame_bind; [apply tame_clear|]. intros _. destruct rc; [|apply tame_here; keeps_tac]. apply tame_for. intros tf. tame1. apply tame_for. intros u.
    apply tame_try; [|intros e; apply tame_here; keeps_tac]. apply tame_bind; [apply tame_get_obj|]. intros c. apply IH.
  Qed.
  Lemma tame_goi a c ks attrs : tame (c_get_or_instantiate a c ks attrs).
  Proof.
    apply tame_try; [apply tame_bind; [apply tame_get_obj|intros r; apply tame_here; keeps_tac]|]. intros e. tame1. tame1. tame1. apply tame_bind; [apply tame_add|]. intros _. apply tame_here. keeps_tac.
  Qed.
  Lemma tame_goa a r : tame (c_get_or_add_model_instance a r).
  Proof.
    unfold c_get_or_add_model_instance. tame1. tame1. apply tame_try; [apply tame_bind; [apply tame_get_obj|intros r'; apply tame_here; keeps_tac]|].
    intros e. apply tame_bind; [apply tame_add|]. intros _. apply tame_here. keeps_tac.
  Qed.
  Lemma tame_gon a m x : tame (c_get_or_none a m x).
  Proof. apply tame_try; [apply tame_bind; [apply tame_get_obj|intros r; apply tame_here; keeps_tac]|intros e; apply tame_here; keeps_tac]. Qed.

  (** the differ and the syncer: states that contain a world *)
  Definition gkeeps {St A} (gw : St -> world) (m : M St A) : Prop := forall s, owned ids (gw s) -> owned ids (gw (fst (m s))).
  Definition gtame {St A} (gw : St -> world) (c : SM St A) : Prop := forall s, owned ids (gw s) -> confined (in_stores ids) (fun sx : St * result A => owned ids (gw (fst sx))) (c s).
  Lemma gtame_here {St A} (gw : St -> world) (m : M St A) : gkeeps gw m -> gtame gw (here m).
  Proof. intros K s O. cbn [here confined]. now apply K. Qed.
  Lemma gtame_bind {St A B} (gw : St -> world) (c : SM St A) (k : A -> SM St B) : gtame gw c -> (forall x, gtame gw (k x)) -> gtame gw (cbind c k).
  Proof. intros H K s O. unfold cbind. eapply confined_then; [|exact (H s O)]. intros [s1 [x|e]] O1; cbn [fst snd] in *; [now apply K|exact O1]. Qed.
  Lemma gtame_for {St A} (gw : St -> world) (l : list A) (f : A -> SM St unit) : (forall x, gtame gw (f x)) -> gtame gw (cforM l f).
  Proof. intros H. induction l as [|x l IH]; cbn [cforM]; [apply gtame_here; now intros s O|]. apply gtame_bind; [apply H|]. now intros _. Qed.
  Lemma gkeeps_bind {St A B} (gw : St -> world) (m : M St A) (k : A -> M St B) : gkeeps gw m -> (forall x, gkeeps gw (k x)) -> gkeeps gw (bind m k).
  Proof. intros H K s O. unfold bind. specialize (H s O). destruct (m s) as [s1 [x|e]]; cbn [fst] in *; [now apply K|exact H]. Qed.
  Lemma gkeeps_try {St A} (gw : St -> world) (m : M St A) p h : gkeeps gw m -> (forall e, gkeeps gw (h e)) -> gkeeps gw (try_catch m p h).
  Proof. intros H K s O. unfold try_catch. specialize (H s O). destruct (m s) as [s1 [x|e]]; cbn [fst] in *; [exact H|]. destruct (p e); [now apply K|exact H]. Qed.
  Lemma gkeeps_for {St A} (gw : St -> world) (l : list A) (f : A -> M St unit) : (forall x, gkeeps gw (f x)) -> gkeeps gw (forM l f).
  Proof. intros H. induction l as [|x l IH]; cbn [forM]; [now intros s O|]. apply gkeeps_bind; [apply H|]. now intros _. Qed.
  Lemma gkeeps_id {St A} (gw : St -> world) (m : M St A) : (forall s, gw (fst (m s)) = gw s) -> gkeeps gw m.
  Proof. intros H s O. now rewrite H. Qed.
  Lemma keeps_map {A B} (f : A -> M world B) l : (forall x, keeps (f x)) -> keeps (mapM f l).
  Proof. intros H. induction l as [|x l IH]; cbn [mapM]; keeps_tac; auto. Qed.
  Lemma keeps_d {A} (m : M world A) : keeps m -> gkeeps ds_w (dlift m).
  Proof. intros K s O. unfold dlift. cbn. now apply K. Qed.
  Lemma keeps_s {A} (m : M world A) : keeps m -> gkeeps ss_w (slift m).
  Proof. intros K s O. unfold slift. cbn. now apply K. Qed.
  Lemma tame_d {A} (c : CM A) : tame c -> gtame ds_w (cdlift c).
  Proof. intros T s O. unfold cdlift. eapply confined_then; [|exact (T _ O)]. intros [w x] O1. exact O1. Qed.
  Lemma tame_s {A} (c : CM A) : tame c -> gtame ss_w (cslift c).
  Proof. intros T s O. unfold cslift. eapply confined_then; [|exact (T _ O)]. intros [w x] O1. exact O1. Qed.
  Lemma keeps_hget r : keeps (hget r). Proof. keeps_tac. Qed.
  Lemma keeps_incr env n : gkeeps ds_w (incr_models_processed env n).
  Proof. intros s O. unfold incr_models_processed. destruct n; [exact O|]. cbn [fst ds_w]. now destruct (en_cb env). Qed.
  Ltac dh := apply gtame_here; first [apply keeps_incr|apply gkeeps_id; reflexivity|apply keeps_d, keeps_map; intros ?; apply keeps_hget].
  Ltac db := apply gtame_bind; [|intros ?].
  Lemma tame_fetch_all a t : gtame ds_w (c_fetch_all a t).
  Proof. unfold c_fetch_all. db; [apply tame_d, tame_get_all|dh]. Qed.
  Lemma tame_children a o f t : gtame ds_w (c_fetch_children a o f t).
  Proof. destruct o as [o|]; cbn [c_fetch_children]; [|dh]. db; [dh|]. unfold c_fetch_by_uids. db; [apply tame_d, tame_by_uids|dh]. Qed.
  Lemma keeps_mapping env so do : gkeeps ds_w (children_mapping env so do).
  Proof.
    unfold children_mapping. destruct so as [s|], do as [d|]; try (apply gkeeps_id; reflexivity).
    apply gkeeps_bind; [|intros _; apply gkeeps_bind; [|intros _; apply gkeeps_id; reflexivity]]; apply gkeeps_for; intros tf;
      (destruct (dmem _ _); [apply gkeeps_id; reflexivity|]; apply gkeeps_bind; [apply gkeeps_id; reflexivity|intros n; apply keeps_incr]).
  Qed.
  Lemma tame_list fuel env : forall src dst, gtame ds_w (c_diff_object_list fuel env src dst).
  Proof.
    induction fuel as [|fuel IH]; intros src dst; cbn [c_diff_object_list]; [dh|]. unfold c_diff_list_body. db; [dh|]. db; [dh|]. cbv zeta. db; [dh|]. db; [dh|].
    generalize (pair_up x x0). induction d as [|[u [so do]] l IHl]; cbn [c_diff_pairs]; [dh|]. db; [|db; [exact IHl|dh]].
    unfold c_diff_object_pair. destruct (match so with Some s => Some s | None => do end) as [o|]; [|dh]. db; [dh|]. db; [dh|]. destruct (skip_pair _ so do); [db; dh|].
    db; [dh|]. db; [apply gtame_here, keeps_mapping|]. db; [|dh]. generalize (@nil (string * dict elem)). match goal with |- context [c_diff_child_types _ _ _ _ ?m _] => induction m as [|[t f] mapping IHm] end; intros gs; cbn [c_diff_child_types]; [dh|].
    db; [apply tame_children|]. db; [apply tame_children|]. db; [apply IH|]. db; [dh|apply IHm].
  Qed.
  Lemma tame_calculate fuel env dc dtop stop : gtame ds_w (c_calculate_diffs fuel env dc dtop stop).
  Proof.
    unfold c_calculate_diffs. db; [|db; [|dh]].
    - apply gtame_for. intros t. destruct (smem t dtop); [db; [apply tame_fetch_all|dh]|]. destruct (smem t stop); [db; [apply tame_fetch_all|dh]|dh].
    - generalize (@nil (string * dict elem)). induction (intersection dtop stop) as [|t types IH]; intros gs; cbn [c_diff_types]; [dh|].
      db; [apply tame_fetch_all|]. db; [apply tame_fetch_all|]. db; [apply tame_list|]. db; [dh|apply IH].
  Qed.
  Lemma tame_diff fuel dst src dc flags cb : tame (c_diff_from fuel dst src dc flags cb).
  Proof.
    unfold c_diff_from. apply tame_adapter. intros sa _. apply tame_adapter. intros da _. apply tame_bind; [apply tame_count_all|intros n]. apply tame_bind; [apply tame_count_all|intros m].
    intros w O. cbv zeta. eapply confined_then; [|exact (tame_calculate _ _ _ _ _ (mkDS w 0) O)]. intros [s x] O1. exact O1.
  Qed.
  Lemma keeps_hook env c ks attrs : keeps (call_create env c ks attrs) /\ (forall r, keeps (call_update env r attrs)) /\ forall r, keeps (call_delete env r).
  Proof.
    split; [|split; intros r]; (unfold call_create, call_update, call_delete; apply keeps_bind; [apply keeps_same; reflexivity|intros w0]; cbv zeta; keeps_tac).
  Qed.
  Lemma keeps_slog lvl st msg : gkeeps ss_w (slog lvl st msg).
  Proof. apply gkeeps_bind; [now intros s O|]. intros s. apply keeps_s. keeps_tac. Qed.
  Lemma keeps_status env a st msg : gkeeps ss_w (log_sync_status env a st msg).
  Proof. unfold log_sync_status. destruct a; [destruct st; apply keeps_slog|]. destruct (has_flag _ _); [apply keeps_slog|now intros s O]. Qed.
  Lemma keeps_model env dm ks attrs : gkeeps ss_w (sync_model env dm ks attrs).
  Proof.
    destruct (keeps_hook env (mkCls "" [] [] [] [] [] [] 0) [] attrs) as (_ & KU & KD).
    assert (KT : gkeeps ss_w (sync_model_try env dm ks attrs)).
    { apply gkeeps_bind; [now intros s O|]. intros s. apply gkeeps_bind; [|intros [r|]; [apply gkeeps_bind; [apply keeps_s, keeps_hget|intros o]|]; now intros s' O].
      destruct (ss_action s) as [[| |]|], dm; try (now intros s' O); try (apply keeps_s; first [apply KU|apply KD]). destruct (ss_class s); [|now intros s' O]. apply keeps_s, keeps_hook. }
    apply gkeeps_bind; [now intros s O|]. intros s. destruct (ss_action s) as [a|]; [|apply gkeeps_bind; [apply keeps_status|now intros _ s' O]]. apply gkeeps_bind.
    - apply gkeeps_try; [apply gkeeps_bind; [exact KT|now intros x s' O]|]. intros e. apply gkeeps_bind; [apply keeps_status|]. intros _. destruct (has_flag _ _); now intros s' O.
    - intros [[m [st msg]]|]; [apply gkeeps_bind; [apply keeps_status|intros _]|]; now intros s' O.
  Qed.
  Lemma tame_dst_model env c ks : tame (c_get_dst_model env c ks).
  Proof. apply tame_try; [|intros e; apply tame_here; keeps_tac]. apply tame_bind; [apply tame_get_obj|intros r]. tame1. apply tame_here; keeps_tac. Qed.
  Lemma tame_apply env a parent r sk : tame (c_apply_to_store env a parent r sk).
  Proof.
    destruct a as [[| |]|]; cbn [c_apply_to_store]; try (apply tame_here; keeps_tac).
    - apply tame_bind; [apply tame_here; destruct parent; [unfold heap_add_child|]; keeps_tac|intros _]. apply tame_bind; [apply tame_add|intros _; apply tame_here; keeps_tac].
    - apply tame_bind; [apply tame_here; destruct parent; [unfold heap_remove_child|]; keeps_tac|intros _]. apply tame_bind; [apply tame_remove|intros _; apply tame_here; keeps_tac].
  Qed.
  Lemma tame_kids l : Forall (fun k => forall p, gtame ss_w (k p)) l -> forall p b, gtame ss_w (c_run_kids l p b).
  Proof. induction 1 as [|k l H F IH]; intros p b; cbn [c_run_kids]; [apply gtame_here; now intros s O|]. db; [apply H|apply IH]. Qed.
  Lemma keeps_flag dm f : keeps (model_flag dm f).
  Proof. destruct dm; cbn [model_flag]; keeps_tac. Qed.
  Ltac shere' := apply gtame_here; first [apply keeps_model|apply keeps_s, keeps_flag|apply gkeeps_id; reflexivity].
  Lemma keeps_adapter a : keeps (get_adapter a).
  Proof. apply keeps_same. intros w. unfold get_adapter. now destruct (nth_error _ a). Qed.
  Lemma tame_body env e parent l : Forall (fun k => forall p, gtame ss_w (k p)) l -> gtame ss_w (c_sync_body env e parent l).
  Proof.
    intros F. unfold c_sync_body. db; [apply gtame_here, keeps_s, keeps_adapter|]. do 4 (db; [shere'|]). cbv zeta. db; [apply tame_s, tame_gon|]. db; [apply tame_s, tame_dst_model|].
    do 3 (db; [shere'|]). db; [destruct (_ && _ && _); [now apply tame_kids|shere']|]. db; [shere'|]. destruct (snd _) as [r|].
    - db; [shere'|]. db; [apply tame_s, tame_apply|]. match goal with |- context [if ?b then _ else _] => destruct b end; [shere'|]. db; [apply gtame_here|destruct (_ || _); [now apply tame_kids|shere']].
      intros s O. unfold incr_elements_processed. cbn. now destruct (sv_cb env).
    - apply gtame_here, gkeeps_bind; [apply keeps_slog|now intros _ s O].
  Qed.
  Lemma tame_all ord env gs : (forall x, In x (children gs) -> forall p, gtame ss_w (c_sync_elem ord env x p)) -> Forall (fun k => forall p, gtame ss_w (k p)) (ordered ord (c_sync_elem ord env) gs).
  Proof. intros H. rewrite (ordered_map ord (c_sync_elem ord env)). apply Forall_map, Forall_forall. intros x I. apply H, (ordered_sub ord), I. Qed.
  Lemma tame_elem ord env e : forall p, gtame ss_w (c_sync_elem ord env e p).
  Proof.
    induction e as [e IH] using elem_ind'. intros p. assert (Y : c_sync_elem ord env e p = c_sync_body env e p (ordered ord (c_sync_elem ord env) (e_kids e))) by now destruct e.
    rewrite Y. apply tame_body, tame_all. intros x I. apply In_children in I as (t & g & n & G & I). exact (IH t g n x G I).
  Qed.
  Lemma tame_sync fuel h dst src dc flags cb given : tame (c_sync_from fuel h dst src dc flags cb given).
  Proof.
    unfold c_sync_from. tame1. apply tame_bind; [destruct given as [d0|]; [destruct (diff_truthy _); [apply tame_here; keeps_tac|]|]; apply tame_diff|intros d].
    unfold c_run_sync. apply tame_bind; [|intros b; apply tame_here; keeps_tac]. intros w O. cbv zeta. eapply confined_then; [|exact (tame_kids _ (tame_all _ _ _ (fun x _ => tame_elem _ _ x)) None false (mkSS w 0 None None None) O)].
    intros [s y] O1. exact O1.
  Qed.
  Lemma tame_call a c : tame (issued a c).
  Proof.
    assert (Z : forall A B (f : A -> B) (c : CM A), tame c -> tame (cfmap f c)) by (intros A B f c0 T; apply tame_bind; [exact T|intros x; apply tame_here; keeps_tac]).
    destruct c; cbn [issued]; apply Z; [apply tame_add|apply tame_update|apply tame_remove|apply tame_remove_item|apply tame_get_obj|apply tame_gon|apply tame_get_all|apply tame_by_uids|apply tame_names|apply tame_count|apply tame_goi|apply tame_goa| | |apply tame_here; keeps_tac|apply tame_here; keeps_tac|apply tame_diff|apply tame_sync].
    - apply tame_bind; [apply tame_goi|]. intros rb. tame1. apply tame_here. keeps_tac.
    - unfold c_update_or_add_model_instance. tame1. apply tame_bind; [apply tame_goa|]. intros rb. tame1. apply tame_here. keeps_tac.
  Qed.
  Lemma tame_history l : forall w, owned ids w -> confined (in_stores ids) (fun wx : world * list (result reply) => owned ids (fst wx)) (issued_all l w).
  Proof.
    induction l as [|[a c] l IH]; intros w O; cbn [issued_all]; [exact O|]. eapply confined_then; [|exact (tame_call a c w O)]. intros [w1 x] O1. cbn [fst snd] in *.
    eapply confined_then; [|exact (IH w1 O1)]. intros [w2 xs] O2. exact O2.
  Qed.
End Tame.
