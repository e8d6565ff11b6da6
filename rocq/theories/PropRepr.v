(** * PropRepr: the texts of values (C74).

    [denotes] is defined in ReprSpec.v, [summary_of] in TextSpec.v. *)
From Coq Require Import Ascii.
From Verif Require Import ReprFacts TextSpec ShowSpec Samples.

(** C74.  repr() shows each value as a literal that denotes it ... *)
Theorem C74_repr : forall v, denotes (py_repr v) v.
Proof. exact repr_denotes. Qed.
Print Assumptions C74_repr.
(** ... so that different values are shown differently, ... *)
Theorem C74_tells : forall v v', py_repr v = py_repr v' -> v = v'.
Proof. exact repr_tells. Qed.
Print Assumptions C74_tells.
(** ... and the line that DiffSyncModel.str writes for an object tells its attributes. *)
Theorem C74_summary : forall o o' u, get_type o = get_type o' -> summary_of o u = summary_of o' u -> get_attrs o = get_attrs o'.
Proof.
  intros o o' u T E. unfold summary_of in E. rewrite T in E. do 4 apply app_inj_l in E. now apply dict_str_tells.
Qed.
Print Assumptions C74_summary.
Example C74_example :
  py_repr (VDict [("it's", VList [VStr "say ""hi"""; VStr "\"; VStr newline; VStr "don't ""x"""]); ("n", VInt (-12)); ("b", VBool true); ("z", VNone)])
  = "{""it's"": ['say ""hi""', '\\', '\n', 'don\'t ""x""'], 'n': -12, 'b': True, 'z': None}" /\
  py_repr (VStr (String (ascii_of_nat 27) "[0m")) = "'\x1b[0m'" /\ py_repr (VList [VStr "1"; VInt 1]) = "['1', 1]".
Proof. repeat split; vm_compute; reflexivity. Qed.

(** str(), which Diff.str and the unique ids use, shows strings as they are: two values that look alike are
    equal, or one of them is a string and the other is not. *)
Theorem C74_str : forall v v', py_str v = py_str v' ->
  v = v' \/ (exists s, v = VStr s /\ forall s', v' <> VStr s') \/ (exists s', v' = VStr s' /\ forall s, v <> VStr s).
Proof.
  intros v v' E. destruct v as [ |b|z| |s|l|d], v' as [ |b'|z'| |s'|l'|d'];
    try (right; left; eexists; split; [reflexivity|discriminate]); try (right; right; eexists; split; [reflexivity|discriminate]);
    left; try (apply repr_tells; exact E). cbn [py_str] in E. now subst.
Qed.
Print Assumptions C74_str.
(** In that case the text of a diff shows a difference that cannot be seen. *)
Definition c_role : cls := mkCls "device" ["name"] [] ["slot"] [] [("name", None); ("slot", Some VNone)] [] 0.
Definition slot_obj (v : val) (a : aid) : obj := mkObj c_role [("name", VStr "r1"); ("slot", v)] [] 0 (Some a) StUnknown "".
Definition w_slot : world :=
  mkWorld [slot_obj (VInt 1) 0; slot_obj (VStr "1") 1]
          [mkAdapter "src" "src" ["device"] [("device", c_role)] (SLocal [("device", [("r1", 0)])]);
           mkAdapter "dst" "dst" ["device"] [("device", c_role)] (SLocal [("device", [("r1", 1)])])] [] [].
Theorem C74_diff_refuted : exists w d e, snd (diff_from 9 1 0 base_class 0 false w) = Ok d /\
  occurs e (d_groups d) /\ e_action e = Some AUpdate /\
  diff_str d 0 = ("device" ++ newline ++ "  device: r1" ++ newline ++ "    slot    src(1)    dst(1)")%string.
Proof.
  exists w_slot. eexists. eexists. split; [vm_compute; reflexivity|]. split; [cbn [d_groups]; eapply occ_here; [left; reflexivity|left; reflexivity]|]. split; vm_compute; reflexivity.
Qed.
Print Assumptions C74_diff_refuted.
