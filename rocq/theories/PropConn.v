(** * PropConn: the construction of a RedisStore (C85). *)
From Coq Require Import Ascii.
From Verif Require Import RedisFacts ConnSpec.

Lemma given_some s t : given s = Some t <-> s = Some t /\ t <> "".
Proof. destruct s as [[|c s]|]; simpl; split; try discriminate; try (intros [H1 H2]; congruence). intros H. injection H as <-. split; [reflexivity|discriminate]. Qed.
Lemma given_none s : given s = None <-> absent_arg s.
Proof. unfold absent_arg. destruct s as [[|c s]|]; simpl; split; auto; try discriminate. intros [H|H]; discriminate. Qed.
Lemma given_not s : given s <> None <-> ~ absent_arg s.
Proof. rewrite given_none. tauto. Qed.

(** the client as a function *)
Definition wanted (host url : option string) (port db : Z) : option target :=
  match given url, given host, negb (Z.eqb port 0) with
  | Some _, Some _, true => None
  | Some u, _, _ => Some (ByUrl u db)
  | None, Some h, _ => Some (ByHost h port db)
  | None, None, _ => None
  end.
Lemma wanted_iff host url port db t : wanted host url port db = Some t <-> wants host url port db t.
Proof.
  unfold wanted. split.
  - destruct (given url) as [u|] eqn:U.
    + apply given_some in U as [U1 U2]. destruct (given host) as [h|] eqn:H.
      * destruct (Z.eqb_spec port 0) as [P|P]; simpl; [|discriminate]. intros E. injection E as <-. constructor; auto.
      * apply given_none in H. intros E. injection E as <-. constructor; auto.
    + apply given_none in U. destruct (given host) as [h|] eqn:H; [|discriminate]. apply given_some in H as [H1 H2].
      intros E. injection E as <-. constructor; auto.
  - intros [u U1 U2 [H|P]|h H1 H2 U].
    + rewrite (proj2 (given_some url u) (conj U1 U2)), (proj2 (given_none host) H). reflexivity.
    + rewrite (proj2 (given_some url u) (conj U1 U2)). subst port. simpl. now destruct (given host).
    + rewrite (proj2 (given_none url) U), (proj2 (given_some host h) (conj H1 H2)). reflexivity.
Qed.
Lemma init_is net uuid cn nm sid host port url db : redis_init net uuid cn nm sid host port url db =
  match given url, given host, negb (Z.eqb port 0) with
  | Some _, Some _, true => ValueRefused
  | _, _, _ =>
      match wanted host url port db with
      | None => StoreUnavailable
      | Some t => match net t with
                  | Answers true => let i := match given sid with Some i => i | None => uuid end in
                                    Opened (mkRStore t i (store_label i) (store_name cn nm))
                  | Answers false | NoConnection => StoreUnavailable
                  | Fails x => Raised x
                  end
      end
  end.
Proof. unfold redis_init, wanted. now destruct (given url), (given host), (negb (Z.eqb port 0)). Qed.

(** C85.  With a URL and a host, ValueError; otherwise the client is made from the URL or the host, and the store is
    available if the server answers; ... *)
Theorem C85_ends : forall net uuid cn nm sid host port url db, let r := redis_init net uuid cn nm sid host port url db in
  (r = ValueRefused <-> ~ absent_arg url /\ ~ absent_arg host /\ port <> 0%Z) /\
  ((exists s, r = Opened s) <-> exists t, wants host url port db t /\ net t = Answers true) /\
  (r = StoreUnavailable <-> (absent_arg url /\ absent_arg host) \/
     exists t, wants host url port db t /\ (net t = Answers false \/ net t = NoConnection)) /\
  (forall x, r = Raised x <-> exists t, wants host url port db t /\ net t = Fails x).
Proof.
  intros net uuid cn nm sid host port url db r. unfold r. rewrite init_is.
  assert (W : forall t, wants host url port db t <-> wanted host url port db = Some t) by (intros; symmetry; apply wanted_iff).
  rewrite <- !given_not, <- !given_none.
  assert (P : port <> 0%Z <-> negb (Z.eqb port 0) = true) by (rewrite negb_true_iff, Z.eqb_neq; tauto). rewrite P.
  assert (X : forall Q, (exists t, wants host url port db t /\ Q t) <-> match wanted host url port db with Some t => Q t | None => False end).
  { intros Q. split; [intros (t & T & q); apply W in T; now rewrite T|]. destruct (wanted host url port db) as [t|] eqn:E; [|intros []]. intros q. exists t. split; [now apply W|exact q]. }
  rewrite !X.
  assert (Y : forall x, (exists t, wants host url port db t /\ net t = Fails x) <-> match wanted host url port db with Some t => net t = Fails x | None => False end) by (intros x; apply X).
  clear W X P. unfold wanted in *.
  destruct (given url) as [u|], (given host) as [h|], (negb (Z.eqb port 0)); cbn [negb] in *;
    try (match goal with |- context [net ?t] => destruct (net t) as [[]| |y] end);
    (split; [|split; [|split; [|intros x; rewrite (Y x)]]]); split; intros Z;
    try discriminate; try tauto; try (destruct Z as (? & ?); discriminate); try (eexists; reflexivity); try congruence;
    try (repeat match goal with H : _ /\ _ |- _ => destruct H | H : _ \/ _ |- _ => destruct H | H : exists _, _ |- _ => destruct H end; congruence);
    try (split; [discriminate|split; [discriminate|reflexivity]]); auto.
  destruct Z as [[Z _]|[]]; discriminate.
Qed.
Print Assumptions C85_ends.
(** ... the store is then named after what was given, with a new id if none was; its keys begin with the label. *)
Theorem C85_store : forall net uuid cn nm sid host port url db s, redis_init net uuid cn nm sid host port url db = Opened s ->
  wants host url port db (rs_client s) /\ net (rs_client s) = Answers true /\
  (absent_arg sid -> rs_id s = uuid) /\ (forall i, sid = Some i -> i <> "" -> rs_id s = i) /\
  (nm = "" -> rs_name s = cn) /\ (nm <> "" -> rs_name s = nm) /\
  rs_str s = (rs_name s ++ " (" ++ rs_id s ++ ")")%string /\
  rs_label s = ("diffsync:" ++ rs_id s)%string /\
  forall t u, redis_key (rs_id s) t u = (rs_label s ++ ":" ++ t ++ ":" ++ u)%string.
Proof.
  intros net uuid cn nm sid host port url db s. rewrite init_is.
  assert (G : match wanted host url port db with
              | None => StoreUnavailable
              | Some t => match net t with
                  | Answers true => let i := match given sid with Some i => i | None => uuid end in
                                    Opened (mkRStore t i (store_label i) (store_name cn nm))
                  | Answers false | NoConnection => StoreUnavailable
                  | Fails x => Raised x
                  end
              end = Opened s ->
    exists t, wants host url port db t /\ net t = Answers true /\ s = (let i := match given sid with Some i => i | None => uuid end in mkRStore t i (store_label i) (store_name cn nm))).
  { destruct (wanted host url port db) as [t|] eqn:W; [|discriminate]. apply wanted_iff in W. destruct (net t) as [[]| |y] eqn:N; try discriminate.
    intros E. injection E as <-. exists t. auto. }
  intros E. assert (E' : exists t, wants host url port db t /\ net t = Answers true /\ s = (let i := match given sid with Some i => i | None => uuid end in mkRStore t i (store_label i) (store_name cn nm))).
  { destruct (given url), (given host), (negb (Z.eqb port 0)); try (apply G; exact E). discriminate. }
  clear G E. destruct E' as (t & T & N & ->). cbv zeta. cbn [rs_client rs_id rs_name rs_label].
  split; [exact T|]. split; [exact N|]. split; [intros A; now rewrite (proj2 (given_none sid) A)|].
  split; [intros i I1 I2; now rewrite (proj2 (given_some sid i) (conj I1 I2))|].
  split; [intros ->; reflexivity|]. split; [intros H; unfold store_name; now destruct nm|].
  split; [reflexivity|]. split; [reflexivity|]. intros; reflexivity.
Qed.
Print Assumptions C85_store.
(** The test of the arguments looks at the port too: with port 0 the host is ignored. *)
Theorem C85_together_refuted : exists net host url s, ~ absent_arg host /\ ~ absent_arg url /\
  redis_init net "id" "RedisStore" "" None host 0 url 0 = Opened s /\ rs_client s = ByUrl "redis://a" 0.
Proof.
  exists (fun _ => Answers true), (Some "b"%string), (Some "redis://a"%string). eexists.
  split; [intros [H|H]; discriminate|]. split; [intros [H|H]; discriminate|]. split; reflexivity.
Qed.
Print Assumptions C85_together_refuted.
Lemma plain_list s : plain s = forallb (fun c => negb (special c)) (list_ascii_of_string s).
Proof. induction s as [|c s IH]; [reflexivity|]. simpl. now rewrite IH. Qed.
Lemma list_of_app a b : list_ascii_of_string (a ++ b) = list_ascii_of_string a ++ list_ascii_of_string b.
Proof. induction a as [|c a IH]; [reflexivity|]. simpl. now rewrite IH. Qed.
Lemma hex_plain c : hex_digit c = true -> negb (special c) = true.
Proof.
  unfold hex_digit. intros H. apply existsb_exists in H as (x & I & E). apply Ascii.eqb_eq in E. subst x.
  assert (A : forallb (fun c => negb (special c)) (list_ascii_of_string "0123456789abcdef") = true) by reflexivity.
  exact (proj1 (forallb_forall _ _) A c I).
Qed.
(** An id that is a UUID has none of the characters that mix up stores (C28). *)
Theorem C85_fresh : forall net uuid cn nm sid host port url db s, uuid_text uuid -> absent_arg sid ->
  redis_init net uuid cn nm sid host port url db = Opened s -> plain (rs_id s) = true.
Proof.
  intros net uuid cn nm sid host port url db s (a & b & c & d & e & -> & _ & F) A E.
  apply C85_store in E as (_ & _ & I & _). rewrite (I A), plain_list, !list_of_app, !forallb_app.
  assert (K : forall x, In x [a; b; c; d; e] -> forallb (fun c => negb (special c)) (list_ascii_of_string x) = true).
  { intros x X. pose proof (proj1 (Forall_forall _ _) F x X) as H. apply forallb_forall. intros y Y. apply hex_plain. exact (proj1 (forallb_forall _ _) H y Y). }
  rewrite (K a), (K b), (K c), (K d), (K e) by (simpl; auto 6). reflexivity.
Qed.
Print Assumptions C85_fresh.

Definition up_net (t : target) : ping_reply :=
  match t with
  | ByHost "a" 6379 0 => Answers true
  | ByUrl "redis://b" _ => Answers true
  | ByUrl "redis://busy" _ => Answers false
  | ByUrl "b" _ => Fails ExnValueError
  | _ => NoConnection
  end.
Definition an_uuid : string := "6ba7b810-9dad-41d1-80b4-00c04fd430c8".
Example C85_example : uuid_text an_uuid /\
  redis_init up_net an_uuid "RedisStore" "" None (Some "a"%string) 6379 None 0 =
    Opened (mkRStore (ByHost "a" 6379 0) an_uuid "diffsync:6ba7b810-9dad-41d1-80b4-00c04fd430c8" "RedisStore") /\
  (exists s, redis_init up_net an_uuid "RedisStore" "cache" (Some "blue"%string) None 6379 (Some "redis://b"%string) 3 = Opened s /\
     rs_str s = "cache (blue)"%string /\ rs_client s = ByUrl "redis://b" 3) /\
  redis_init up_net an_uuid "RedisStore" "" None (Some "a"%string) 6379 (Some "redis://b"%string) 0 = ValueRefused /\
  redis_init up_net an_uuid "RedisStore" "" None (Some "a"%string) 6379 (Some ""%string) 1 = StoreUnavailable /\
  redis_init up_net an_uuid "RedisStore" "" None None 6379 (Some "redis://busy"%string) 0 = StoreUnavailable /\
  redis_init up_net an_uuid "RedisStore" "" None None 6379 None 0 = StoreUnavailable /\
  redis_init up_net an_uuid "RedisStore" "" None None 6379 (Some "b"%string) 0 = Raised ExnValueError.
Proof.
  split.
  { exists "6ba7b810"%string, "9dad"%string, "41d1"%string, "80b4"%string, "00c04fd430c8"%string. split; [reflexivity|]. split; [reflexivity|]. repeat constructor. }
  split; [reflexivity|]. split; [eexists; split; [reflexivity|split; reflexivity]|]. repeat split.
Qed.
