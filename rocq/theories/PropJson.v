(** * PropJson: the JSON text of a model (C90). *)
From Coq Require Import Ascii String List Lia.
From Verif Require Import JsonFacts Samples.
Import ListNotations.
Open Scope string_scope. Open Scope list_scope.

(** C90.  The text is JSON: a reader of JSON finds the value it was written for, but for NaN, which is written as null *)
Theorem C90_read : forall v : val, proper v -> json_loads (json_val v) = Some (nulled v).
Proof. exact loads_val. Qed.
Print Assumptions C90_read.

(** two values with one text are the same value *)
Theorem C90_tells : forall v v' : val, proper v -> proper v' -> has_nan v = false -> has_nan v' = false -> json_val v = json_val v' -> v = v'.
Proof.
  intros v v' P P' N N' E. pose proof (loads_val v P) as L. rewrite E, (loads_val v' P'), !nulled_same in L by assumption. congruence.
Qed.
Print Assumptions C90_tells.

(** no control character is left in it: the text of a model is a single line *)
Theorem C90_line : forall (o : obj) (c : ascii), In c (list_ascii_of_string (model_json o)) -> 32 <= nat_of_ascii c.
Proof. intros o. exact (visible_val _). Qed.
Print Assumptions C90_line.

(** [cls( **json.loads(model.json()))] is the model again, values that equal their default possibly replaced by it *)
Theorem C90_model : forall o : obj, well_shaped o -> own_names (o_cls o) -> ids_as_default o ->
  (forall k v, In (k, v) (o_vals o) -> proper v /\ has_nan v = false) ->
  exists d o', json_loads (model_json o) = Some (VDict d) /\ from_members (o_cls o) d = Ok o' /\ reloaded o o' /\ get_unique_id o' = get_unique_id o.
Proof. intros o WS ON ID V. apply model_back; auto; intros k v I; apply (V k v I). Qed.
Print Assumptions C90_model.

(** models of a class that have the same text are copies of one model *)
Theorem C90_same : forall o o' : obj, o_cls o' = o_cls o -> model_json o' = model_json o -> own_names (o_cls o) ->
  (forall x, x = o \/ x = o' -> well_shaped x /\ ids_as_default x /\ forall k v, In (k, v) (o_vals x) -> proper v /\ has_nan v = false) ->
  (exists x, reloaded o x /\ reloaded o' x) /\ get_unique_id o' = get_unique_id o.
Proof.
  intros o o' C E ON H. destruct (H o (or_introl eq_refl)) as (W1 & I1 & V1). destruct (H o' (or_intror eq_refl)) as (W2 & I2 & V2).
  destruct (C90_model o W1 ON I1 V1) as (d & x & L & F & R & U). rewrite <- C in ON. destruct (C90_model o' W2 ON I2 V2) as (d' & x' & L' & F' & R' & U').
  rewrite E, L in L'. injection L' as <-. rewrite C, F in F'. injection F' as <-. split; [now exists x|congruence].
Qed.
Print Assumptions C90_same.

Definition c_host : cls :=
  mkCls "host" ["name"] [] ["tags"; "data"; "seen"] [("port", "ports")] [("name", None); ("tags", Some (VList [])); ("data", Some VNone); ("seen", Some (VBool false))] ["ports"] 0.
Definition o90 : obj :=
  mkObj c_host [("name", VStr ("a""b\" ++ String (ascii_of_nat 10) (String (ascii_of_nat 1) "")));
                ("tags", VList [VStr "x"; VInt (-12); VList []; VBool true]); ("data", VDict [("k", VNone); ("l", VDict [])]); ("seen", VInt 0)]
        [("ports", ["p1"; "p2"])] 5 (Some 0) StSuccess "".
Definition o90n : obj :=
  mkObj c_host [("name", VStr "n"); ("tags", VList []); ("data", VNaN); ("seen", VBool true)] [("ports", [])] 0 (Some 0) StSuccess "".
Lemma host_names : own_names c_host.
Proof. unfold own_names. cbn. repeat constructor; cbn; intuition discriminate. Qed.
Lemma o90_shaped : well_shaped o90.
Proof. split; [reflexivity|]. split; [repeat constructor; cbn; intuition discriminate|]. split; [reflexivity|repeat constructor; cbn; intuition discriminate]. Qed.
Lemma o90n_shaped : well_shaped o90n.
Proof. split; [reflexivity|]. split; [repeat constructor; cbn; intuition discriminate|]. split; [reflexivity|repeat constructor; cbn; intuition discriminate]. Qed.
Ltac pv := lazymatch goal with
  | |- proper (VList _) => apply pr_list; let J := fresh in intros ? J; repeat (destruct J as [<-|J]; [pv|]); destruct J
  | |- proper (VDict _) => apply pr_dict; [cbn; repeat constructor; cbn; intuition discriminate|let J := fresh in intros ? ? J; repeat (destruct J as [[= <- <-]|J]; [pv|]); destruct J]
  | |- _ => constructor
  end.
Lemma o90_vals k v : In (k, v) (o_vals o90) -> proper v /\ has_nan v = false.
Proof.
  intros I. repeat (destruct I as [[= <- <-]|I]; [split; [pv|reflexivity]|]). destruct I.
Qed.
Example C90_ex : model_json o90 = "{""model_flags"":5,""name"":""a\""b\\\n\u0001"",""tags"":[""x"",-12,[],true],""data"":{""k"":null,""l"":{}},""ports"":[""p1"",""p2""]}" /\
  (exists d o', json_loads (model_json o90) = Some (VDict d) /\ from_members c_host d = Ok o' /\ reloaded o90 o' /\ get_unique_id o' = get_unique_id o90 /\
     dget (o_vals o') "seen" = Some (VBool false) /\ dget (o_kids o') "ports" = Some ["p1"; "p2"] /\ o_flags o' = 5%N).
Proof.
  split; [reflexivity|].
  assert (ID : ids_as_default o90). { intros k v d [<-|[]] G I Q. repeat (destruct I as [I|I]; [discriminate I|]). destruct I. }
  destruct (C90_model o90 o90_shaped host_names ID o90_vals) as (d & o' & L & F & R & U). exists d, o'. split; [exact L|]. split; [exact F|]. split; [exact R|]. split; [exact U|].
  revert L. vm_compute (json_loads (model_json o90)). intros [= <-]. revert F. vm_compute (from_members _ _). intros [= <-]. split; [reflexivity|split; reflexivity].
Qed.

(** NaN does not come back *)
Theorem C90_nan_refuted : ~ forall o : obj, well_shaped o -> own_names (o_cls o) -> ids_as_default o -> (forall k v, In (k, v) (o_vals o) -> proper v) ->
  exists d o', json_loads (model_json o) = Some (VDict d) /\ from_members (o_cls o) d = Ok o' /\ reloaded o o'.
Proof.
  intros H. destruct (H o90n o90n_shaped host_names) as (d & o' & L & F & R).
  - intros k v d [<-|[]] G I Q. repeat (destruct I as [I|I]; [discriminate I|]). destruct I.
  - intros k v I. repeat (destruct I as [[= <- <-]|I]; [pv|]). destruct I.
  - revert L. vm_compute (json_loads (model_json o90n)). intros [= <-]. revert F. vm_compute (from_members _ _). intros [= <-].
    destruct R as (_ & _ & _ & R). cbn [o_vals o90n] in R. inversion R as [|? ? ? ? _ R2]; subst. inversion R2 as [|? ? ? ? _ R3]; subst. inversion R3 as [|? ? ? ? Q _]; subst.
    cbn in Q. destruct Q as (_ & [Q|Q]); discriminate.
Qed.
Print Assumptions C90_nan_refuted.
