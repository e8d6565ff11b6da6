(** * TextFacts: str() of models and adapters follows the specification. *)
From Verif Require Export TextSpec SyncFacts ShowStr.

(** ** Without state *)
Fixpoint plines (fuel : nat) (w : world) (deep : bool) (o : obj) (n : nat) {struct fuel} : result (list line) :=
  match fuel with
  | O => Err ExnRecursionError
  | S fuel' =>
      rbind (get_unique_id o) (fun u =>
      rbind (rmapM (fun tf : string * string =>
        rbind (getattr_kids o (snd tf)) (fun us =>
        match us, o_adapter o with
        | [], _ => Ok [(S n, snd tf ++ ": []")%string]
        | _, Some b =>
            if negb (Nat.eqb (count_all w b) 0) && deep then
              rbind (rmapM (fun id =>
                match match objs_by w b [id] (fst tf) with
                      | Ok [c] => plines fuel' w deep c (S (S n))
                      | Ok _ => Err DanglingRef
                      | Err e => Err e
                      end with
                | Ok ls => Ok ls
                | Err e => if is_not_found e then Ok [(S (S n), id ++ " (ERROR: details unavailable)")%string] else Err e
                end) us) (fun lss => Ok ((S n, snd tf) :: concat lss))
            else Ok [(S n, snd tf ++ ": " ++ listed_ids us)%string]
        | _, None => Ok [(S n, snd tf ++ ": " ++ listed_ids us)%string]
        end)) (c_children (o_cls o))) (fun lss => Ok ((n, summary_of o u) :: concat lss)))
  end.

(** ** Reading *)
Lemma read_only_count w w' a : read_only w w' -> count_all w' a = count_all w a.
Proof.
  intros R. unfold count_all. destruct (nth_error (w_ads w) a) as [ad|] eqn:E; [|now rewrite (read_only_ad_none _ _ _ R E)].
  destruct (read_only_ad _ _ _ _ R E) as (s & -> & SE). cbn [ad_store set_ad_store]. destruct (ad_store ad) as [d|i], s as [d'|i']; try destruct SE.
  - destruct H as (-> & _). rewrite map_app, list_sum_app, map_map. assert (Z : forall l : list string, list_sum (map (fun _ => 0) l) = 0) by (induction l; auto). now rewrite Z, Nat.add_0_r.
  - unfold scan. destruct R as (_ & -> & _). reflexivity.
Qed.
Lemma listed_repr us : py_repr (VList (map VStr us)) = listed_ids us.
Proof. unfold listed_ids. cbn [py_repr]. rewrite map_map. reflexivity. Qed.
Lemma st_get_one b t u w : exists w' r, st_get b (MName t) (IdStr u) w = (w', r) /\ read_only w w' /\ w_trace w' = w_trace w /\
  match r with Ok c => rbind (deref w' [c]) (fun x => Ok x) = objs_by w b [u] t | Err e => objs_by w b [u] t = Err e end.
Proof.
  destruct (by_uids_store [u] b t w) as (w' & r & E & R & T & D). exists w'.
  assert (X : st_get_by_uids b [u] (MName t) w = (let (w1, r1) := st_get b (MName t) (IdStr u) w in (w1, rbind r1 (fun c => Ok [c])))).
  { unfold st_get_by_uids. cbn [mapM]. unfold bind at 1. unfold st_get, bind. unfold get_adapter. destruct (nth_error (w_ads w) b) as [ad|]; [|reflexivity].
    cbn [lift get_uid object_class_and_model fst snd spec_name]. destruct (ad_store ad) as [d|i].
    - rewrite put_store_eq. destruct (dget (bucket d t) u); reflexivity.
    - unfold redis_load. destruct (dget (w_redis w) (redis_key i t u)); reflexivity. }
  rewrite X in E. destruct (st_get b (MName t) (IdStr u) w) as [w1 r1]. injection E as -> <-. exists r1.
  split; [reflexivity|]. split; [exact R|]. split; [exact T|]. unfold objs_by. destruct r1 as [c|e]; cbn [rbind] in D.
  - rewrite <- D. destruct (deref w' [c]); reflexivity.
  - now rewrite <- D.
Qed.

Section Reads.
  Variable w : world.
  Hypothesis OK : w_ok w.
  Definition reads {A} (w1 : world) (m : M world A) (p : result A) : Prop :=
    read_only w w1 -> read_only w1 (fst (m w1)) /\ w_trace (fst (m w1)) = w_trace w1 /\ snd (m w1) = p.
  Lemma reads_ret {A} w1 (a : A) : reads w1 (ret a) (Ok a).
  Proof. intros R. split; [apply read_only_refl|]. split; reflexivity. Qed.
  Lemma reads_lift {A} w1 (r : result A) : reads w1 (lift r) r.
  Proof. intros R. split; [apply read_only_refl|]. split; reflexivity. Qed.
  Lemma reads_bind {A B} w1 (m : M world A) p (k : A -> M world B) q : reads w1 m p ->
    (forall w2 a, p = Ok a -> read_only w1 w2 -> reads w2 (k a) (q a)) -> reads w1 (bind m k) (rbind p q).
  Proof.
    intros H K R. destruct (H R) as (A1 & A2 & A3). unfold bind. destruct (m w1) as [w2 [a|e]]; cbn [fst snd] in *; subst p; cbn [rbind]; [|auto].
    destruct (K w2 a eq_refl A1 (read_only_trans _ _ _ R A1)) as (B1 & B2 & B3). split; [eapply read_only_trans; eauto|]. split; congruence.
  Qed.
  Lemma reads_state {A} w1 (k : world -> M world A) p : (read_only w w1 -> reads w1 (k w1) p) -> reads w1 (bind get_state k) p.
  Proof. intros H R. exact (H R R). Qed.
  Lemma reads_get {B} w1 b t u (k : ref -> M world B) q :
    (forall w2 c o, read_only w1 w2 -> nth_error (w_heap w2) c = Some o -> gives w b t u o -> reads w2 (k c) (q o)) ->
    reads w1 (bind (st_get b (MName t) (IdStr u)) k)
      (match objs_by w b [u] t with Ok [o] => q o | Ok _ => Err DanglingRef | Err e => Err e end).
  Proof.
    intros K R. destruct (st_get_one b t u w1) as (w2 & r & E & R2 & T & D). rewrite (read_only_objs_by w w1 b [u] t OK R) in D.
    unfold bind. rewrite E. destruct r as [c|e]; cbn [rbind] in D; [|rewrite D; cbn [fst snd]; auto].
    unfold deref in D. cbn [rmapM] in D. destruct (nth_error (w_heap w2) c) as [o|] eqn:H; cbn [rbind] in D.
    - rewrite <- D. destruct (K w2 c o R2 H (eq_sym D) (read_only_trans _ _ _ R R2)) as (B1 & B2 & B3).
      split; [eapply read_only_trans; eauto|]. split; congruence.
    - exfalso. (* a stored reference is not dangling *)
      destruct (st_get_one b t u w1) as (w2' & r' & E' & _). rewrite E in E'. injection E' as <- <-.
      assert (W1 : w_ok w1) by (eapply read_only_w_ok; eauto). unfold st_get, bind, get_adapter in E.
      destruct (nth_error (w_ads w1) b) as [ad|] eqn:EA; [|discriminate]. cbn [lift get_uid object_class_and_model fst snd] in E.
      destruct (ad_store ad) as [d|i] eqn:ES.
      + rewrite put_store_eq in E. destruct (dget (bucket d t) u) as [r|] eqn:G; [|discriminate]. injection E as <- <-.
        rewrite upd_store_heap in H. apply nth_error_None in H. pose proof (w_ok_bucket w1 b ad d t W1 EA ES) as F. rewrite Forall_forall in F.
        apply dget_Some_In in G. assert (In r (dvals (bucket d t))) as I by (unfold dvals; apply in_map_iff; exists (u, r); auto). specialize (F _ I). lia.
      + unfold redis_load in E. destruct (dget (w_redis w1) (redis_key i t u)) as [o|]; [|discriminate]. unfold halloc in E. injection E as <- <-.
        cbn [w_heap set_heap] in H. rewrite nth_error_app2, Nat.sub_diag in H by lia. discriminate.
  Qed.
  Lemma reads_catch {A} w1 (m : M world A) p (h : exn -> M world A) q : reads w1 m p ->
    (forall w2 e, p = Err e -> is_not_found e = true -> reads w2 (h e) (q e)) ->
    reads w1 (try_catch m is_not_found h) (match p with Ok a => Ok a | Err e => if is_not_found e then q e else Err e end).
  Proof.
    intros H K R. destruct (H R) as (A1 & A2 & A3). unfold try_catch. destruct (m w1) as [w2 [a|e]]; cbn [fst snd] in *; subst p; [auto|].
    destruct (is_not_found e) eqn:N; [|auto]. destruct (K w2 e eq_refl N (read_only_trans _ _ _ R A1)) as (B1 & B2 & B3).
    split; [eapply read_only_trans; eauto|]. split; congruence.
  Qed.

  (** *** Lines as appended to the output *)
  Definition added (indent : nat) (ls : list line) : string := String.concat "" (map (fun l => newline ++ written indent l)%string ls).
  Lemma added_app indent l m : added indent (l ++ m) = (added indent l ++ added indent m)%string.
  Proof. unfold added. now rewrite map_app, sconcat_app. Qed.
  Lemma added_one indent l : added indent [l] = (newline ++ written indent l)%string.
  Proof. reflexivity. Qed.
  Lemma added_cons indent l ls : added indent (l :: ls) = (newline ++ join newline (map (written indent) (l :: ls)))%string.
  Proof. unfold added. cbn [map]. rewrite sconcat_cons, join_cons, map_map. now rewrite app_assoc_s. Qed.
  Lemma join_added indent l ls : join newline (map (written indent) (l :: ls)) = (written indent l ++ added indent ls)%string.
  Proof. cbn [map]. rewrite join_cons, map_map. reflexivity. Qed.
  Definition outp (indent : nat) (out : string) (p : result (list line)) : result string := rbind p (fun ls => Ok (out ++ added indent ls)%string).
  Lemma reads_ext {A} w1 (m : M world A) p q : reads w1 m p -> p = q -> reads w1 m q.
  Proof. now intros H <-. Qed.
  Lemma reads_fold {A} indent (f : string -> A -> M world string) (g : A -> result (list line)) l : 
    forall w1 out, (forall x w2 out, In x l -> read_only w1 w2 -> reads w2 (f out x) (outp indent out (g x))) ->
    reads w1 (foldM l f out) (outp indent out (rbind (rmapM g l) (fun lss => Ok (concat lss)))).
  Proof.
    induction l as [|x l IH]; intros w1 out H.
    - cbn. unfold added. cbn. rewrite app_nil_s. apply reads_ret.
    - cbn [foldM rmapM]. eapply reads_ext.
      + eapply reads_bind; [apply H; [now left|apply read_only_refl]|]. intros w2 out' E R. apply IH. intros y w3 o' I R'. apply H; [now right|eapply read_only_trans; eauto].
      + unfold outp. destruct (g x) as [ls|e]; [|reflexivity]. cbn [rbind]. destruct (rmapM g l) as [lss|e]; [|reflexivity]. cbn [rbind concat]. f_equal. now rewrite added_app, app_assoc_s.
  Qed.
  Lemma w_margin indent n s : written indent (n, s) = (spaces (indent + 2 * n) ++ s)%string.
  Proof. reflexivity. Qed.
  Lemma w_under indent n s : written indent (S n, s) = (spaces (indent + 2 * n) ++ "  " ++ s)%string.
  Proof. unfold written. cbn [fst snd]. replace (indent + 2 * S n) with ((indent + 2 * n) + 2) by lia. now rewrite spaces_plus, app_assoc_s. Qed.
  Lemma w_under2 indent n s : written indent (S (S n), s) = (spaces (indent + 2 * n) ++ "    " ++ s)%string.
  Proof. unfold written. cbn [fst snd]. replace (indent + 2 * S (S n)) with ((indent + 2 * n) + 4) by lia. now rewrite spaces_plus, app_assoc_s. Qed.
  Lemma plines_cons fuel deep o n ls : plines fuel w deep o n = Ok ls -> exists l ls', ls = l :: ls'.
  Proof.
    destruct fuel; cbn [plines]; [discriminate|]. destruct (get_unique_id o); [|discriminate]. cbn [rbind]. destruct (rmapM _ _); [|discriminate]. cbn [rbind]. intros E. injection E as <-. eauto.
  Qed.
  Lemma reads_model fuel deep indent : forall n w1 r o, nth_error (w_heap w1) r = Some o ->
    reads w1 (model_str fuel r deep (indent + 2 * n)) (rbind (plines fuel w deep o n) (fun ls => Ok (join newline (map (written indent) ls)))).
  Proof.
    induction fuel as [|fuel IH]; intros n w1 r o H; [apply reads_lift|]. cbn [model_str plines].
    apply (reads_ext w1 _ (rbind (Ok o) (fun o => rbind (get_unique_id o) (fun u =>
      outp indent (written indent (n, summary_of o u)) (rbind (rmapM (fun tf : string * string =>
        rbind (getattr_kids o (snd tf)) (fun us =>
        match us, o_adapter o with
        | [], _ => Ok [(S n, snd tf ++ ": []")%string]
        | _, Some b =>
            if negb (Nat.eqb (count_all w b) 0) && deep then
              rbind (rmapM (fun id =>
                match match objs_by w b [id] (fst tf) with
                      | Ok [c] => plines fuel w deep c (S (S n))
                      | Ok _ => Err DanglingRef
                      | Err e => Err e
                      end with
                | Ok ls => Ok ls
                | Err e => if is_not_found e then Ok [(S (S n), id ++ " (ERROR: details unavailable)")%string] else Err e
                end) us) (fun lss => Ok ((S n, snd tf) :: concat lss))
            else Ok [(S n, snd tf ++ ": " ++ listed_ids us)%string]
        | _, None => Ok [(S n, snd tf ++ ": " ++ listed_ids us)%string]
        end)) (c_children (o_cls o))) (fun lss => Ok (concat lss))))))).
    2:{ cbn [rbind]. destruct (get_unique_id o) as [u|]; [|reflexivity]. cbn [rbind]. unfold outp. destruct (rmapM _ _) as [lss|]; [|reflexivity]. cbn [rbind]. now rewrite join_added. }
    apply reads_bind; [intros R; unfold hget; rewrite H; split; [apply read_only_refl|split; reflexivity]|].
    intros w2 o' E R2. injection E as <-. apply reads_bind; [apply reads_lift|]. intros w3 u EU R3.
    change (spaces (indent + 2 * n) ++ get_type o ++ ": " ++ u ++ ": " ++ dict_str (get_attrs o))%string with (written indent (n, summary_of o u)).
    apply reads_fold. intros [t f] w4 out I R4. cbn [fst snd]. unfold outp. 
    destruct (getattr_kids o f) as [us|e] eqn:EK; [|intros R; split; [apply read_only_refl|split; reflexivity]]. cbn [rbind].
    apply (reads_bind w4 (lift (Ok us)) (Ok us) _ (fun _ => _) (reads_lift _ _)). intros w5 us' EQ R5. injection EQ as <-.
    apply reads_state. intros R0.
    assert (T : forall b, adapter_truthy w5 (Some b) = negb (Nat.eqb (count_all w b) 0)) by (intros b; unfold adapter_truthy; now rewrite (read_only_count w w5)).
    assert (L : forall s, ((out ++ newline ++ spaces (indent + 2 * n) ++ "  " ++ f) ++ s)%string = (out ++ added indent [(S n, (f ++ s)%string)])%string)
      by (intros s; rewrite added_one, w_under; now rewrite !app_assoc_s).
    assert (L0 : (out ++ newline ++ spaces (indent + 2 * n) ++ "  " ++ f)%string = (out ++ added indent [(S n, f)])%string)
      by (rewrite added_one, w_under; reflexivity).
    destruct us as [|u0 us0]; [rewrite L; apply reads_ret|]. set (us := u0 :: us0) in *.
    destruct (o_adapter o) as [b|] eqn:EO; [|rewrite listed_repr, L; apply reads_ret].
    rewrite T. destruct (negb (Nat.eqb (count_all w b) 0) && deep); [|rewrite listed_repr, L; apply reads_ret].
    eapply reads_ext; [eapply (reads_fold indent _ (fun id => match match objs_by w b [id] t with Ok [c] => plines fuel w deep c (S (S n)) | Ok _ => Err DanglingRef | Err e => Err e end with
                | Ok ls => Ok ls | Err e => if is_not_found e then Ok [(S (S n), id ++ " (ERROR: details unavailable)")%string] else Err e end))|].
    - intros id w6 out' I' R6. unfold outp. eapply reads_ext.
      + apply reads_catch with (q := fun _ => Ok (out' ++ added indent [(S (S n), id ++ " (ERROR: details unavailable)")%string])%string).
        * apply reads_get with (q := fun c => rbind (plines fuel w deep c (S (S n))) (fun ls => Ok (out' ++ added indent ls)%string)).
          intros w7 c oc R7 HC GV. replace (indent + 2 * n + 4) with (indent + 2 * S (S n)) by lia.
          eapply reads_ext; [eapply reads_bind; [apply (IH (S (S n)) w7 c oc HC)|intros w8 s _ _; apply reads_ret]|].
          destruct (plines fuel w deep oc (S (S n))) as [ls|e] eqn:EP; [|reflexivity]. cbn [rbind]. destruct (plines_cons _ _ _ _ _ EP) as (l & ls' & ->). now rewrite added_cons.
        * intros w7 e _ _. rewrite added_one, w_under2. apply reads_ret.
      + destruct (objs_by w b [id] t) as [[|c [|c' cs]]|e]; cbn; try reflexivity; [|destruct (is_not_found e); reflexivity].
        destruct (plines fuel w deep c (S (S n))) as [ls|e]; cbn; [reflexivity|]. destruct (is_not_found e); reflexivity.
    - unfold outp. match goal with |- context [rmapM ?g us] => destruct (rmapM g us) as [lss|e] end; [|reflexivity]. cbn [rbind]. rewrite L0, app_assoc_s, <- added_app. reflexivity.
  Qed.
End Reads.

(** ** Portraits *)
Scheme portrait_mut := Induction for portrait Sort Prop
  with fields_mut := Induction for fields Sort Prop
  with offspring_mut := Induction for offspring Sort Prop.

Lemma not_found_is e : is_not_found e = true -> e = ObjectNotFound.
Proof. destruct e; simpl; congruence. Qed.
Lemma uid_err o e : get_unique_id o = Err e -> is_not_found e = false.
Proof.
  unfold get_unique_id, create_unique_id. intros E.
  assert (X : forall l, (exists e, rmapM (fun k => rbind (dict_item (get_identifiers o) k) (fun v => Ok (py_str v))) l = Err e /\ is_not_found e = true) -> False).
  { induction l as [|k l IH]; intros (e' & A & B); [discriminate|]. cbn [rmapM] in A. unfold dict_item at 1 in A. destruct (dget (get_identifiers o) k); cbn [rbind] in A.
    - apply IH. exists e'. split; [|exact B]. match goal with |- ?x = _ => destruct x end; cbn [rbind] in A; congruence.
    - injection A as <-. discriminate. }
  destruct (is_not_found e) eqn:N; [exfalso|reflexivity]. apply (X (c_identifiers (o_cls o))). exists e. split; [|exact N].
  match type of E with rbind ?x _ = _ => destruct x end; cbn in E; congruence.
Qed.
Definition pkid (P : obj -> nat -> result (list line)) (w : world) (b : aid) (t : string) (m : nat) (id : string) : result (list line) :=
  match match objs_by w b [id] t with
        | Ok [c] => P c m
        | Ok _ => Err DanglingRef
        | Err e => Err e
        end with
  | Ok ls => Ok ls
  | Err e => if is_not_found e then Ok [(m, id ++ " (ERROR: details unavailable)")%string] else Err e
  end.
Definition pfield (P : obj -> nat -> result (list line)) (w : world) (deep : bool) (n : nat) (o : obj) (tf : string * string) : result (list line) :=
  rbind (getattr_kids o (snd tf)) (fun us =>
  match us, o_adapter o with
  | [], _ => Ok [(S n, snd tf ++ ": []")%string]
  | _, Some b =>
      if negb (Nat.eqb (count_all w b) 0) && deep then
        rbind (rmapM (pkid P w b (fst tf) (S (S n))) us) (fun lss => Ok ((S n, snd tf) :: concat lss))
      else Ok [(S n, snd tf ++ ": " ++ listed_ids us)%string]
  | _, None => Ok [(S n, snd tf ++ ": " ++ listed_ids us)%string]
  end).
Lemma plines_eq fuel w deep o n : plines (S fuel) w deep o n =
  rbind (get_unique_id o) (fun u => rbind (rmapM (pfield (plines fuel w deep) w deep n o) (c_children (o_cls o))) (fun lss => Ok ((n, summary_of o u) :: concat lss))).
Proof. reflexivity. Qed.
Lemma rmapM_err {A B} (f : A -> result B) l e : rmapM f l = Err e -> exists x, In x l /\ f x = Err e.
Proof.
  induction l as [|x l IH]; cbn [rmapM]; [discriminate|]. destruct (f x) as [y|e'] eqn:F; cbn [rbind].
  - destruct (rmapM f l) as [ys|e'']; cbn [rbind]; intros E; [discriminate|]. injection E as ->. destruct (IH eq_refl) as (z & I & Z). exists z. split; [now right|exact Z].
  - intros E. injection E as ->. exists x. split; [now left|exact F].
Qed.
Lemma plines_err fuel w deep : forall o n e, plines fuel w deep o n = Err e -> is_not_found e = false.
Proof.
  induction fuel as [|fuel IH]; intros o n e; [intros E; injection E as <-; reflexivity|]. rewrite plines_eq.
  destruct (get_unique_id o) as [u|e'] eqn:U; cbn [rbind]; [|intros E; injection E as <-; eapply uid_err; eauto].
  destruct (rmapM _ _) as [lss|e'] eqn:R; cbn [rbind]; [discriminate|]. intros E. injection E as ->. apply rmapM_err in R as ([t f] & I & F).
  unfold pfield in F. cbn [fst snd] in F. unfold getattr_kids in F. destruct (dget (o_kids o) f) as [us|]; cbn [rbind] in F; [|injection F as <-; reflexivity].
  destruct us as [|u0 us]; [discriminate|]. destruct (o_adapter o) as [b|]; [|discriminate]. destruct (_ && _); [|discriminate].
  destruct (rmapM _ _) as [lss|e'] eqn:R; cbn [rbind] in F; [discriminate|]. injection F as ->. apply rmapM_err in R as (id & _ & K). unfold pkid in K.
  match type of K with match ?x with _ => _ end = _ => destruct x as [ls|e'] end; [discriminate|]. destruct (is_not_found e') eqn:N; [discriminate|]. now injection K as <-.
Qed.
Lemma truthy_asks w o b : o_adapter o = Some b -> negb (Nat.eqb (count_all w b) 0) = true <-> asks w o b.
Proof. intros E. unfold asks. rewrite negb_true_iff, Nat.eqb_neq. tauto. Qed.

Lemma plines_sound fuel w deep : forall o n ls, plines fuel w deep o n = Ok ls -> portrait w deep n o ls.
Proof.
  induction fuel as [|fuel IH]; intros o n ls; [discriminate|]. rewrite plines_eq.
  destruct (get_unique_id o) as [u|] eqn:U; cbn [rbind]; [|discriminate].
  destruct (rmapM _ _) as [lss|] eqn:R; cbn [rbind]; [|discriminate]. intros E. injection E as <-. constructor; [exact U|].
  revert lss R. generalize (c_children (o_cls o)) as fs. induction fs as [|[t f] fs IHf]; intros lss R; [injection R as <-; constructor|].
  cbn [rmapM] in R. destruct (pfield _ _ _ _ _ (t, f)) as [l1|] eqn:F; cbn [rbind] in R; [|discriminate]. destruct (rmapM _ fs) as [lss'|]; cbn [rbind] in R; [|discriminate].
  injection R as <-. cbn [concat]. specialize (IHf lss' eq_refl). unfold pfield, getattr_kids in F. cbn [fst snd] in F.
  destruct (dget (o_kids o) f) as [us|] eqn:K; cbn [rbind] in F; [|discriminate].
  destruct us as [|u0 us0]; [injection F as <-; now constructor|]. set (us := u0 :: us0) in *. assert (NE : us <> []) by discriminate.
  destruct (o_adapter o) as [b|] eqn:EO.
  2:{ injection F as <-. apply fields_ids; auto. right. intros b (A & _). congruence. }
  destruct (negb _) eqn:T; cbn [andb] in F.
  2:{ injection F as <-. apply fields_ids; auto. right. intros b' A. assert (b' = b) by (destruct A; congruence). subst b'. apply (truthy_asks w o b EO) in A. congruence. }
  apply (truthy_asks w o b EO) in T. destruct deep; [|injection F as <-; apply fields_ids; auto].
  destruct (rmapM (pkid _ w b t _) us) as [kss|] eqn:RK; cbn [rbind] in F; [|discriminate]. injection F as <-. cbn [app].
  apply fields_kids with (us := us) (b := b); auto. clear - IH RK. clearbody us. revert kss RK. induction us as [|id us IHu]; intros kss RK; [injection RK as <-; constructor|].
  cbn [rmapM] in RK. destruct (pkid _ w b t _ id) as [k1|] eqn:P; cbn [rbind] in RK; [|discriminate]. destruct (rmapM _ us) as [kss'|]; cbn [rbind] in RK; [|discriminate].
  injection RK as <-. cbn [concat]. specialize (IHu kss' eq_refl). unfold pkid in P. destruct (objs_by w b [id] t) as [[|c [|c' cs]]|e] eqn:O; try discriminate.
  - destruct (plines fuel w true c (S (S n))) as [ls|e] eqn:PL; [injection P as <-; apply off_there with c; auto|]. rewrite (plines_err _ _ _ _ _ _ PL) in P. discriminate.
  - destruct (is_not_found e) eqn:N; [|discriminate]. injection P as <-. apply not_found_is in N. subst e. now apply (off_missing w true).
Qed.
Lemma plines_complete w deep n o ls : portrait w deep n o ls -> exists k, forall fuel, k <= fuel -> plines fuel w deep o n = Ok ls.
Proof.
  intros H.
  refine (portrait_mut w deep
    (fun n o ls _ => exists k, forall fuel, k <= fuel -> plines fuel w deep o n = Ok ls)
    (fun n o fs ls _ => exists k, forall fuel n', n = S n' -> k <= fuel -> exists lss, rmapM (pfield (plines fuel w deep) w deep n' o) fs = Ok lss /\ concat lss = ls)
    (fun n b t us ls _ => exists k, forall fuel, k <= fuel -> exists lss, rmapM (pkid (plines fuel w deep) w b t n) us = Ok lss /\ concat lss = ls)
    _ _ _ _ _ _ _ _ n o ls H); clear.
  - intros n o u ls U _ (k & IH). exists (S k). intros fuel L. destruct fuel as [|fuel]; [lia|]. rewrite plines_eq, U. cbn [rbind].
    destruct (IH fuel n eq_refl ltac:(lia)) as (lss & -> & <-). reflexivity.
  - intros n o. exists 0. intros fuel n' _ _. exists []. split; reflexivity.
  - intros n o t f fs ls K _ (k & IH). exists k. intros fuel n' -> L. destruct (IH fuel n' eq_refl L) as (lss & R & <-). exists ([(S n', (f ++ ": []")%string)] :: lss).
    split; [|reflexivity]. cbn [rmapM]. unfold pfield at 1, getattr_kids. cbn [snd]. rewrite K. cbn [rbind]. now rewrite R.
  - intros n o t f fs us ls K NE D _ (k & IH). exists k. intros fuel n' -> L. destruct (IH fuel n' eq_refl L) as (lss & R & <-). exists ([(S n', (f ++ ": " ++ listed_ids us)%string)] :: lss).
    split; [|reflexivity]. cbn [rmapM]. unfold pfield at 1, getattr_kids. cbn [snd]. rewrite K. cbn [rbind]. destruct us as [|u us]; [congruence|].
    destruct (o_adapter o) as [b|] eqn:EO; [|cbn [rbind]; now rewrite R].
    destruct (negb _) eqn:T; [|cbn [andb rbind]; now rewrite R]. apply (truthy_asks w o b EO) in T. destruct D as [->|D]; [cbn [andb rbind]; now rewrite R|]. now apply D in T.
  - intros n o t f fs us b below ls K NE -> A _ (k1 & IH1) _ (k & IH). exists (max k1 k). intros fuel n' -> L.
    destruct (IH fuel n' eq_refl ltac:(lia)) as (lss & R & <-). destruct (IH1 fuel ltac:(lia)) as (kss & RK & <-). exists (((S n', f) :: concat kss) :: lss).
    split; [|reflexivity]. cbn [rmapM]. unfold pfield at 1, getattr_kids. cbn [fst snd]. rewrite K. cbn [rbind]. destruct us as [|u us]; [congruence|].
    destruct (A) as (EO & _). rewrite EO. apply (truthy_asks w o b EO) in A. rewrite A. cbn [andb]. rewrite RK. cbn [rbind]. now rewrite R.
  - intros n b t. exists 0. intros fuel _. exists []. split; reflexivity.
  - intros n b t u us c ls ls' G _ (k1 & IH1) _ (k & IH). exists (max k1 k). intros fuel L. destruct (IH fuel ltac:(lia)) as (lss & R & <-). exists (ls :: lss).
    split; [|reflexivity]. cbn [rmapM]. unfold pkid at 1. rewrite G, (IH1 fuel ltac:(lia)). cbn [rbind]. now rewrite R.
  - intros n b t u us ls' G _ (k & IH). exists k. intros fuel L. destruct (IH fuel L) as (lss & R & <-). exists ([(n, (u ++ " (ERROR: details unavailable)")%string)] :: lss).
    split; [|reflexivity]. cbn [rmapM]. unfold pkid at 1. rewrite G. cbn [is_not_found rbind]. now rewrite R.
Qed.

(** ** Adapters *)
Lemma st_get_all_one a t w : exists w' r, st_get_all a (MName t) w = (w', r) /\ read_only w w' /\ w_trace w' = w_trace w /\
  rbind r (deref w') = objs_all w a t.
Proof.
  destruct (fetch_all_eq a t (mkDS w 0)) as (w' & E & R & T). cbn [ds_w ds_n] in *. unfold fetch_all, bind in E.
  destruct (st_get_all a (MName t) w) as [w1 r] eqn:G. exists w1, r. split; [reflexivity|].
  rewrite (dlift_eq _ (mkDS w 0) w1 r G) in E. cbn [ds_n] in E. destruct r as [rs|e]; cbn [rbind].
  - unfold dlift in E. cbn [ds_w ds_n] in E. rewrite mapM_hget in E. cbn [fst snd] in E. injection E as -> <-. auto.
  - injection E as -> <-. auto.
Qed.
Lemma deref_rmapM {B} w rs (g : obj -> result B) os : deref w rs = Ok os ->
  rmapM (fun r => match nth_error (w_heap w) r with Some o => g o | None => Err DanglingRef end) rs = rmapM g os.
Proof.
  unfold deref. revert os. induction rs as [|r rs IH]; intros os E; [injection E as <-; reflexivity|]. cbn [rmapM] in *.
  destruct (nth_error (w_heap w) r) as [o|]; [|discriminate]. cbn [rbind] in E. match type of E with rbind ?x _ = _ => destruct x as [os'|] end; [|discriminate]. cbn [rbind] in E. injection E as <-.
  cbn [rmapM]. now rewrite (IH os' eq_refl).
Qed.
Lemma get_all_refs a t w w' rs : w_ok w -> st_get_all a (MName t) w = (w', Ok rs) -> exists os, deref w' rs = Ok os.
Proof.
  intros OK E. unfold st_get_all, bind, get_adapter in E. destruct (nth_error (w_ads w) a) as [ad|] eqn:EA; [|discriminate]. destruct (ad_store ad) as [d|i] eqn:ES.
  - rewrite put_store_eq in E. cbn [spec_name] in E. injection E as <- <-. unfold deref. rewrite upd_store_heap. pose proof (w_ok_bucket w a ad d t OK EA ES) as F.
    induction (dvals (bucket d t)) as [|r rs IH]; [eexists; reflexivity|]. inversion F as [|? ? L F']; subst. destruct (IH F') as (os & X). cbn [rmapM].
    destruct (nth_error (w_heap w) r) as [o|] eqn:H; [|apply nth_error_None in H; lia]. cbn [rbind]. rewrite X. eexists. reflexivity.
  - unfold get_state in E. destruct (redis_loads a (scan w (store_label i ++ ":" ++ spec_name (MName t) ++ ":*")%string) w) as (news & rs' & r & X & Y). rewrite X in E. injection E as <- ->.
    match type of Y with context [rmapM ?f ?l] => destruct (rmapM f l) as [os|e] end; [|discriminate]. destruct Y as (Y1 & -> & ->). injection Y1 as ->. exists os. now apply deref_seq.
Qed.
Definition pgallery (fuel : nat) (w : world) (a : aid) (t : string) : result (list line) :=
  rbind (objs_all w a t) (fun os =>
  match os with
  | [] => Ok [(0, t ++ ": []")%string]
  | _ => rbind (rmapM (fun o => plines fuel w true o 1) os) (fun lss => Ok ((0, t) :: concat lss))
  end).
(** text so far with lines appended; the first line starts the text *)
Definition extended (indent : nat) (out : string) (ls : list line) : string :=
  match out, ls with
  | "", _ => join newline (map (written indent) ls)
  | _, _ => (out ++ added indent ls)%string
  end.
Lemma extended_app indent out l ls ls' : (added indent (l :: ls) <> newline) -> extended indent (extended indent out (l :: ls)) ls' = extended indent out ((l :: ls) ++ ls').
Proof.
  intros NE. destruct out as [|c out].
  - cbn [extended]. rewrite <- app_comm_cons, !join_added, added_app, <- app_assoc_s, <- !join_added. remember (join newline (map (written indent) (l :: ls))) as s eqn:E.
    destruct s as [|c s]; [exfalso; apply NE; now rewrite added_cons, <- E|reflexivity].
  - change (extended indent (String c out) (l :: ls)) with (String c (out ++ added indent (l :: ls)))%string. cbn [extended]. rewrite added_app, <- app_assoc_s. reflexivity.
Qed.
Lemma nl_eq s : (newline ++ s)%string = newline -> s = "".
Proof. intros E. injection E as E. exact E. Qed.
Lemma nonempty_tail a b : b <> "" -> (a ++ b)%string <> "".
Proof. destruct a; simpl; congruence. Qed.
Lemma pgallery_cons fuel w a t indent ls : pgallery fuel w a t = Ok ls -> exists l ls', ls = l :: ls' /\ added indent ls <> newline.
Proof.
  unfold pgallery. destruct (objs_all w a t) as [os|]; cbn [rbind]; [|discriminate]. destruct os as [|o os].
  - intros E. injection E as <-. do 2 eexists. split; [reflexivity|]. rewrite added_one. intros X. apply nl_eq in X. unfold written in X. cbn [fst snd] in X.
    revert X. apply nonempty_tail, nonempty_tail. discriminate.
  - cbn [rmapM]. destruct (plines fuel w true o 1) as [k|] eqn:P; cbn [rbind]; [|discriminate]. destruct (rmapM _ os) as [lss|]; cbn [rbind]; [|discriminate].
    intros E. injection E as <-. do 2 eexists. split; [reflexivity|]. apply plines_cons in P as (l & k' & ->). cbn [concat app]. rewrite added_cons. intros X. apply nl_eq in X.
    rewrite join_added, added_cons in X. revert X. apply nonempty_tail. discriminate.
Qed.
Lemma reads_type w (OK : w_ok w) fuel a indent t w1 out :
  reads w w1 (models <- st_get_all a (MName t) ;;
    match models with
    | [] => ret ((match out with "" => out | _ => out ++ newline end ++ spaces indent ++ t) ++ ": []")%string
    | _ => foldM models (fun output r => s <- model_str fuel r true (indent + 2) ;; ret (output ++ newline ++ s)%string)
             (match out with "" => out | _ => out ++ newline end ++ spaces indent ++ t)%string
    end) (rbind (pgallery fuel w a t) (fun ls => Ok (extended indent out ls))).
Proof.
  assert (L0 : forall s, (match out with "" => out | _ => out ++ newline end ++ spaces indent ++ s)%string = extended indent out [(0, s)]).
  { intros s. destruct out as [|c out]; [cbn [extended map]; unfold join, written; cbn [String.concat fst snd]; now rewrite Nat.add_0_r|].
    cbn [extended]. rewrite added_one, app_assoc_s. unfold written. cbn [fst snd]. now rewrite Nat.add_0_r. }
  intros R. destruct (st_get_all_one a t w1) as (w2 & r & E & R2 & T & D). rewrite (read_only_objs_all w w1 a t OK R) in D. 
  assert (B : forall (k : list ref -> M world string), bind (st_get_all a (MName t)) k w1 = match r with Ok x => k x w2 | Err e => (w2, Err e) end) by (intros k; unfold bind; now rewrite E).
  rewrite B.
  unfold pgallery. rewrite <- D. destruct r as [rs|e]; cbn [rbind]; [|auto]. cbn [rbind] in D.
  assert (exists os, deref w2 rs = Ok os) as (os & DO).
  { eapply get_all_refs; [|exact E]. eapply read_only_w_ok; eauto. }
  rewrite DO. cbn [rbind]. destruct rs as [|r0 rs0].
  - injection DO as <-. cbn [fst snd ret rbind]. split; [exact R2|]. split; [exact T|]. f_equal. rewrite <- (L0 (t ++ ": []")%string). now rewrite !app_assoc_s.
  - set (rs := r0 :: rs0) in *. assert (NE : os <> []) by (intros ->; unfold deref, rs in DO; cbn [rmapM] in DO; destruct (nth_error (w_heap w2) r0); [|discriminate]; cbn [rbind] in DO; match type of DO with rbind ?y _ = _ => destruct y end; discriminate).
    rewrite L0. assert (X : reads w w2 (foldM rs (fun output r => s <- model_str fuel r true (indent + 2) ;; ret (output ++ newline ++ s)%string) (extended indent out [(0, t)]))
      (outp indent (extended indent out [(0, t)]) (rbind (rmapM (fun r => match nth_error (w_heap w2) r with Some o => plines fuel w true o 1 | None => Err DanglingRef end) rs) (fun lss => Ok (concat lss))))).
    { apply reads_fold. intros r w3 out' I R3. destruct (nth_error (w_heap w2) r) as [o|] eqn:H.
      - change (indent + 2) with (indent + 2 * 1). eapply reads_ext; [eapply reads_bind; [apply (reads_model w OK fuel true indent 1 w3 r o (read_only_nth _ _ _ _ R3 H))|intros w4 s _ _; apply reads_ret]|].
        unfold outp. destruct (plines fuel w true o 1) as [ls|e] eqn:EP; [|reflexivity]. cbn [rbind]. destruct (plines_cons _ _ _ _ _ _ EP) as (l & ls' & ->). now rewrite added_cons.
      - exfalso. clear - DO I H. clearbody rs. revert os DO. unfold deref. induction rs as [|x rs IH]; intros os DO; [easy|]. cbn [rmapM] in DO.
        destruct I as [->|I]; [rewrite H in DO; discriminate|]. destruct (nth_error (w_heap w2) x); [|discriminate]. cbn [rbind] in DO.
        match type of DO with rbind ?y _ = _ => destruct y eqn:Y end; [|discriminate]. eapply IH; eauto. }
    destruct (X (read_only_trans _ _ _ R R2)) as (A1 & A2 & A3). split; [eapply read_only_trans; eauto|]. split; [congruence|]. rewrite A3. unfold outp. rewrite (deref_rmapM _ _ _ _ DO).
    destruct os as [|o os]; [congruence|]. match goal with |- context [rmapM ?g (o :: os)] => destruct (rmapM g (o :: os)) as [lss|] end; [|reflexivity]. cbn [rbind]. f_equal.
    destruct out as [|c out]; cbn [extended]; [|now rewrite app_assoc_s, <- added_app].
    rewrite (join_added indent (0, t) (concat lss)). reflexivity.
Qed.
Lemma reads_types w (OK : w_ok w) fuel a indent ts : forall w1 out,
  reads w w1 (foldM ts (fun output modelname =>
    let output := match output with "" => output | _ => (output ++ newline)%string end in
    let output := (output ++ spaces indent ++ modelname)%string in
    models <- st_get_all a (MName modelname) ;;
    match models with
    | [] => ret (output ++ ": []")%string
    | _ => foldM models (fun output r => s <- model_str fuel r true (indent + 2) ;; ret (output ++ newline ++ s)%string) output
    end) out)
   (match ts with [] => Ok out | _ => rbind (rmapM (pgallery fuel w a) ts) (fun lss => Ok (extended indent out (concat lss))) end).
Proof.
  induction ts as [|t ts IH]; intros w1 out; [apply reads_ret|]. cbn [foldM rmapM].
  eapply reads_ext; [eapply reads_bind; [apply (reads_type w OK fuel a indent t w1 out)|intros w2 s _ _; apply IH]|].
  destruct (pgallery fuel w a t) as [ls|] eqn:G; [|reflexivity]. cbn [rbind]. destruct ts as [|t' ts]; [cbn [rmapM rbind concat]; now rewrite app_nil_r|].
  destruct (rmapM (pgallery fuel w a) (t' :: ts)) as [lss|]; [|reflexivity]. cbn [rbind concat]. f_equal.
  destruct (pgallery_cons fuel w a t indent ls G) as (l & ls' & -> & NE). now apply extended_app.
Qed.
Lemma reads_adapter w (OK : w_ok w) fuel a indent ad : nth_error (w_ads w) a = Some ad ->
  reads w w (adapter_str fuel a indent) (rbind (rmapM (pgallery fuel w a) (ad_top ad)) (fun lss => Ok (join newline (map (written indent) (concat lss))))).
Proof.
  intros E. unfold adapter_str. eapply reads_ext.
  - eapply (reads_bind w w (get_adapter a) (Ok ad)); [intros R; unfold get_adapter; rewrite E; split; [apply read_only_refl|split; reflexivity]|].
    intros w2 ad' EQ R. apply reads_types. exact OK.
  - cbn [rbind]. destruct (ad_top ad) as [|t ts]; reflexivity.
Qed.

Lemma pgallery_sound fuel w a ts lss : rmapM (pgallery fuel w a) ts = Ok lss -> gallery w a ts (concat lss).
Proof.
  revert lss. induction ts as [|t ts IH]; intros lss E; [injection E as <-; constructor|]. cbn [rmapM] in E.
  destruct (pgallery fuel w a t) as [ls|] eqn:G; [|discriminate]. cbn [rbind] in E. destruct (rmapM _ ts) as [lss'|]; [|discriminate]. cbn [rbind] in E. injection E as <-. cbn [concat].
  specialize (IH lss' eq_refl). unfold pgallery in G. destruct (objs_all w a t) as [os|] eqn:O; [|discriminate]. cbn [rbind] in G.
  destruct os as [|o os]; [injection G as <-; now apply gallery_none|]. set (os' := o :: os) in *.
  match type of G with rbind ?x _ = _ => destruct x as [kss|] eqn:K end; [|discriminate]. cbn [rbind] in G. injection G as <-. cbn [app].
  apply gallery_some with os'; auto; [discriminate|]. clear - K. clearbody os'. clear o os. revert kss K. induction os' as [|o1 os1 IH]; intros kss K; [injection K as <-; constructor|].
  cbn [rmapM] in K. destruct (plines fuel w true o1 1) as [ls|] eqn:P; [|discriminate]. cbn [rbind] in K. match type of K with rbind ?x _ = _ => destruct x as [kss'|] end; [|discriminate]. cbn [rbind] in K. injection K as <-.
  cbn [concat]. constructor; [eapply plines_sound; eauto|now apply IH].
Qed.
Lemma portraits_complete w n os ls : portraits w n os ls -> exists k, forall fuel, k <= fuel -> exists lss, rmapM (fun o => plines fuel w true o n) os = Ok lss /\ concat lss = ls.
Proof.
  induction 1 as [n|n o os ls ls' P _ (k & IH)]; [exists 0; intros; exists []; split; reflexivity|].
  apply plines_complete in P as (k1 & P). exists (max k1 k). intros fuel L. destruct (IH fuel ltac:(lia)) as (lss & R & <-). exists (ls :: lss). cbn [rmapM]. rewrite P by lia. cbn [rbind]. now rewrite R.
Qed.
Lemma pgallery_complete w a ts ls : gallery w a ts ls -> exists k, forall fuel, k <= fuel -> exists lss, rmapM (pgallery fuel w a) ts = Ok lss /\ concat lss = ls.
Proof.
  induction 1 as [|t ts ls O _ (k & IH)|t ts os below ls O NE P _ (k & IH)].
  - exists 0. intros. exists []. split; reflexivity.
  - exists k. intros fuel L. destruct (IH fuel L) as (lss & R & <-). exists ([(0, (t ++ ": []")%string)] :: lss). split; [|reflexivity]. cbn [rmapM]. unfold pgallery at 1. rewrite O. cbn [rbind]. now rewrite R.
  - apply portraits_complete in P as (k1 & P). exists (max k1 k). intros fuel L. destruct (IH fuel ltac:(lia)) as (lss & R & <-), (P fuel ltac:(lia)) as (kss & K & <-).
    exists (((0, t) :: concat kss) :: lss). split; [|reflexivity]. cbn [rmapM]. unfold pgallery at 1. rewrite O. cbn [rbind]. destruct os as [|o os]; [congruence|]. rewrite K. cbn [rbind]. now rewrite R.
Qed.

(** ** Who is in the picture *)
Lemma portrait_shows w n o ls : portrait w true n o ls -> forall k o', descends w k o o' -> exists u, get_unique_id o' = Ok u /\ In (n + 2 * k, summary_of o' u) ls.
Proof.
  intros P k o' D. revert n ls P. induction D as [o|k o b t f us u c o' A I K IU G D IH]; intros n ls P.
  - inversion P; subst. exists u. split; [assumption|]. rewrite Nat.add_0_r. now left.
  - inversion P as [? ? u0 fl U F]; subst. clear P U.
    assert (X : forall fs fl, fields w true (S n) o fs fl -> In (t, f) fs -> exists below, offspring w true (S (S n)) b t us below /\ incl below fl).
    { clear F I IH. intros fs fl' F. remember (S n) as m. induction F as [m o|m o t' f' fs ls K' F IHF|m o t' f' fs us' ls K' NE' N F IHF|m o t' f' fs us' b' below ls K' NE' _ A' OS F IHF]; intros I; [easy| | |].
      - destruct I as [E|I]; [injection E as -> ->; rewrite K' in K; injection K as <-; easy|]. destruct (IHF A K Heqm I) as (bl & O & SB). exists bl. split; [exact O|]. intros x X. right. auto.
      - destruct I as [E|I]; [injection E as -> ->; destruct N as [N|N]; [discriminate|now apply N in A]|]. destruct (IHF A K Heqm I) as (bl & O & SB). exists bl. split; [exact O|]. intros x X. right. auto.
      - subst m. destruct I as [E|I].
        + injection E as -> ->. assert (b' = b) by (destruct A, A'; congruence). subst b'. assert (us' = us) by congruence. subst us'. exists below. split; [exact OS|]. intros x X. right. apply in_or_app. now left.
        + destruct (IHF A K eq_refl I) as (bl & O & SB). exists bl. split; [exact O|]. intros x X. right. apply in_or_app. right. auto. }
    destruct (X _ _ F I) as (below & O & SB). clear X F.
    assert (Y : exists cl, portrait w true (S (S n)) c cl /\ incl cl below).
    { clear SB K I. remember (S (S n)) as m. clear Heqm n. induction O as [m b t|m b t u' us c' ls ls' G' P O IHO|m b t u' us ls' L O IHO]; [easy| |].
      - destruct IU as [->|IU]; [|destruct (IHO A IU G) as (cl & P' & SB); exists cl; split; [exact P'|]; intros x X; apply in_or_app; right; auto].
        assert (c' = c) by (unfold gives in *; congruence). subst c'. exists ls. split; [exact P|]. intros x X. apply in_or_app. now left.
      - destruct IU as [->|IU]; [unfold gives, lacks in *; congruence|]. destruct (IHO A IU G) as (cl & P' & SB). exists cl. split; [exact P'|]. intros x X. right. auto. }
    destruct Y as (cl & P & SB'). destruct (IH _ _ P) as (u' & U' & I'). exists u'. split; [exact U'|]. right. apply SB, SB'. replace (n + 2 * S k) with (S (S n) + 2 * k) by lia. exact I'.
Qed.
Lemma about_below w deep n o b t f us u c l : asks w o b -> In (t, f) (c_children (o_cls o)) -> dget (o_kids o) f = Some us -> In u us -> gives w b t u c ->
  line_about w deep (S (S n)) c l -> line_about w deep n o l.
Proof.
  intros A I K IU G (k & o' & D & X). exists (S k), o'. split; [econstructor; eauto|]. replace (n + 2 * S k) with (S (S n) + 2 * k) by lia. exact X.
Qed.
Lemma portrait_lines w deep n o ls : portrait w deep n o ls -> forall l, In l ls -> line_about w deep n o l.
Proof.
  intros H.
  refine (portrait_mut w deep
    (fun n o ls _ => forall l, In l ls -> line_about w deep n o l)
    (fun n o fs ls _ => incl fs (c_children (o_cls o)) -> forall n', n = S n' -> forall l, In l ls -> line_about w deep n' o l)
    (fun n b t us ls _ => forall l, In l ls -> (exists u c, In u us /\ gives w b t u c /\ line_about w deep n c l) \/
                                               (exists u, In u us /\ lacks w b t u /\ l = (n, (u ++ " (ERROR: details unavailable)")%string)))
    _ _ _ _ _ _ _ _ n o ls H); clear.
  - intros n o u ls U _ IH l [<-|I]; [|eapply IH; eauto; apply incl_refl]. exists 0, o. split; [constructor|]. left. exists u. rewrite Nat.add_0_r. auto.
  - intros n o _ n' _ l [].
  - intros n o t f fs ls K _ IH S n' -> l [<-|I]; [|eapply IH; eauto; intros x X; apply S; now right].
    exists 0, o. split; [constructor|]. right. left. exists t, f, []. split; [apply S; now left|]. split; [exact K|]. cbn [fst snd]. split; [lia|now right].
  - intros n o t f fs us ls K NE D _ IH S n' -> l [<-|I]; [|eapply IH; eauto; intros x X; apply S; now right].
    exists 0, o. split; [constructor|]. right. left. exists t, f, us. split; [apply S; now left|]. split; [exact K|]. cbn [fst snd]. split; [lia|now right].
  - intros n o t f fs us b below ls K NE _ A _ IH1 _ IH S n' -> l [<-|I].
    + exists 0, o. split; [constructor|]. right. left. exists t, f, us. split; [apply S; now left|]. split; [exact K|]. cbn [fst snd]. split; [lia|now left].
    + apply in_app_or in I as [I|I]; [|eapply IH; eauto; intros x X; apply S; now right]. destruct (IH1 l I) as [(u & c & IU & G & LA)|(u & IU & L & ->)].
      * eapply about_below; eauto. apply S. now left.
      * exists 0, o. split; [constructor|]. right. right. exists b, t, f, us, u. split; [exact A|]. split; [apply S; now left|]. repeat (split; [assumption|]). f_equal. lia.
  - intros n b t l [].
  - intros n b t u us c ls ls' G _ IH1 _ IH l I. apply in_app_or in I as [I|I]; [left; exists u, c; split; [now left|split; auto]|].
    destruct (IH l I) as [(u' & c' & IU & X)|(u' & IU & X)]; [left; exists u', c'|right; exists u']; (split; [now right|exact X]).
  - intros n b t u us ls' L _ IH l [<-|I]; [right; exists u; split; [now left|auto]|].
    destruct (IH l I) as [(u' & c' & IU & X)|(u' & IU & X)]; [left; exists u', c'|right; exists u']; (split; [now right|exact X]).
Qed.

(** ** Together *)
Lemma model_text w r o deep indent : w_ok w -> nth_error (w_heap w) r = Some o ->
  (forall ls, portrait w deep 0 o ls -> exists k, forall fuel, k <= fuel ->
     snd (model_str fuel r deep indent w) = Ok (join newline (map (written indent) ls))) /\
  (forall fuel s, snd (model_str fuel r deep indent w) = Ok s ->
     exists ls, portrait w deep 0 o ls /\ s = join newline (map (written indent) ls)).
Proof.
  intros OK H. assert (X : forall fuel, snd (model_str fuel r deep indent w) = rbind (plines fuel w deep o 0) (fun ls => Ok (join newline (map (written indent) ls)))).
  { intros fuel. pose proof (reads_model w OK fuel deep indent 0 w r o H (read_only_refl w)) as (_ & _ & E). rewrite Nat.mul_0_r, Nat.add_0_r in E. exact E. }
  split.
  - intros ls P. apply plines_complete in P as (k & P). exists k. intros fuel L. rewrite X, P by exact L. reflexivity.
  - intros fuel s E. rewrite X in E. destruct (plines fuel w deep o 0) as [ls|] eqn:P; [|discriminate]. cbn [rbind] in E. injection E as <-. exists ls. split; [eapply plines_sound; eauto|reflexivity].
Qed.
Lemma adapter_text w a ad indent : w_ok w -> nth_error (w_ads w) a = Some ad ->
  (forall ls, gallery w a (ad_top ad) ls -> exists k, forall fuel, k <= fuel ->
     snd (adapter_str fuel a indent w) = Ok (join newline (map (written indent) ls))) /\
  (forall fuel s, snd (adapter_str fuel a indent w) = Ok s ->
     exists ls, gallery w a (ad_top ad) ls /\ s = join newline (map (written indent) ls)).
Proof.
  intros OK H. assert (X : forall fuel, snd (adapter_str fuel a indent w) = rbind (rmapM (pgallery fuel w a) (ad_top ad)) (fun lss => Ok (join newline (map (written indent) (concat lss))))).
  { intros fuel. apply (reads_adapter w OK fuel a indent ad H (read_only_refl w)). }
  split.
  - intros ls P. apply pgallery_complete in P as (k & P). exists k. intros fuel L. destruct (P fuel L) as (lss & R & <-). rewrite X, R. reflexivity.
  - intros fuel s E. rewrite X in E. destruct (rmapM _ _) as [lss|] eqn:P; [|discriminate]. cbn [rbind] in E. injection E as <-. exists (concat lss). split; [eapply pgallery_sound; eauto|reflexivity].
Qed.
Lemma text_reads w fuel : w_ok w ->
  (forall r deep indent, let w' := fst (model_str fuel r deep indent w) in read_only w w' /\ w_trace w' = w_trace w) /\
  (forall a indent, let w' := fst (adapter_str fuel a indent w) in read_only w w' /\ w_trace w' = w_trace w).
Proof.
  intros OK. split.
  - intros r deep indent. destruct (nth_error (w_heap w) r) as [o|] eqn:H.
    + pose proof (reads_model w OK fuel deep indent 0 w r o H (read_only_refl w)) as (A & B & _). rewrite Nat.mul_0_r, Nat.add_0_r in A, B. auto.
    + destruct fuel; cbn [model_str]; [split; [apply read_only_refl|reflexivity]|]. unfold bind, hget. rewrite H. cbn. split; [apply read_only_refl|reflexivity].
  - intros a indent. destruct (nth_error (w_ads w) a) as [ad|] eqn:H.
    + destruct (reads_adapter w OK fuel a indent ad H (read_only_refl w)) as (A & B & _). auto.
    + unfold adapter_str, bind, get_adapter. rewrite H. cbn. split; [apply read_only_refl|reflexivity].
Qed.

Lemma str_objects o : (forall u, get_unique_id o = Ok u -> model_repr o = Ok (get_type o ++ " """ ++ u ++ """")%string /\ model_dunder_str o = Ok u) /\
  (forall e, get_unique_id o = Err e -> model_repr o = Err e /\ model_dunder_str o = Err e).
Proof. unfold model_repr, model_dunder_str. split; intros x ->; auto. Qed.
Lemma quote_split t : forall t' a b, unquoted t -> unquoted t' -> (t ++ String (Ascii.ascii_of_nat 34) a = t' ++ String (Ascii.ascii_of_nat 34) b)%string -> t = t' /\ a = b.
Proof.
  unfold unquoted. induction t as [|c t IH]; intros [|c' t'] a b N N' E; simpl in E; injection E.
  - intros ->. auto.
  - intros _ <-. elim N'. simpl. auto.
  - intros _ ->. elim N. simpl. auto.
  - intros E' ->. destruct (IH t' a b) as [-> ->]; auto; intros I; [apply N|apply N']; simpl; auto.
Qed.
Lemma str_length_app a b : String.length (a ++ b) = String.length a + String.length b.
Proof. induction a as [|c a IH]; [reflexivity|]. simpl. now rewrite IH. Qed.
Lemma append_end a b c : (a ++ c = b ++ c)%string -> a = b.
Proof.
  intros E. assert (L : String.length a = String.length b).
  { apply (f_equal String.length) in E. rewrite !str_length_app in E. lia. }
  revert b E L. induction a as [|x a IH]; intros [|y b] E L; simpl in *; try discriminate; [reflexivity|].
  injection E as -> E. f_equal. apply IH; auto.
Qed.
Lemma repr_tells o o' s : unquoted (get_type o) -> unquoted (get_type o') -> model_repr o = Ok s -> model_repr o' = Ok s ->
  get_type o = get_type o' /\ get_unique_id o = get_unique_id o'.
Proof.
  intros N N'. unfold model_repr. destruct (get_unique_id o) as [u|]; simpl; [|discriminate]. destruct (get_unique_id o') as [u'|]; simpl; [|discriminate].
  intros E E'. injection E as <-. injection E' as E'.
  assert (Q : forall t u0, (t ++ " """ ++ u0 ++ """" = (t ++ " ") ++ String (Ascii.ascii_of_nat 34) (u0 ++ """"))%string).
  { intros t u0. induction t as [|c t IH]; [reflexivity|]. simpl. f_equal. exact IH. }
  assert (U : forall t, unquoted t -> unquoted (t ++ " ")).
  { intros t H I. apply H. clear H N N' E'. induction t as [|c t IH]; simpl in *; [destruct I as [I|[]]; discriminate|]. destruct I as [I|I]; auto. }
  change (get_type o' ++ " """ ++ u' ++ """" = get_type o ++ " """ ++ u ++ """")%string in E'.
  rewrite !Q in E'. destruct (quote_split _ _ _ _ (U _ N') (U _ N) E') as [T V]. apply append_end in T. apply append_end in V. now subst.
Qed.
