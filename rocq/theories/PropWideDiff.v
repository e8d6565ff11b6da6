(** * PropWideDiff: C92, a diff calculated while user code may do anything.

    The progress callback and Diff.complete are any programs on the world (WideDiffDefs): they may change and remove any object, use
    any adapter and raise anything. *)
From Verif Require Import WideDiffFacts WideLog SyncSample.
From Coq Require Import Lia Sorted.

Lemma diff_run limit dst src dc flags D w w' log r : wide_diff limit dst src dc flags D w = (w', Ok (log, r)) ->
  let env := mkWD src dst flags (count_all w src + count_all w dst) in
  exists sa da x, nth_error (w_ads w) src = Some sa /\ nth_error (w_ads w) dst = Some da /\
    x = wd_main env D limit (mkDW w 0 []) /\
    match snd x with
    | Err e => w' = dw_w (fst x) /\ log = dw_log (fst x) /\ r = Err e
    | Ok gs => let d := mkDiff dc gs (dw_n (fst x)) in let c := du_complete D d (dw_w (fst x)) in
        w' = fst c /\ r = snd c /\
        log = dw_log (fst x) ++ [mkDE (dw_w (fst x)) (DComplete d) (fst c) (match snd c with Ok _ => Ok tt | Err e => Err e end)]
    end.
Proof.
  unfold wide_diff. unfold bind at 1, get_adapter at 1. destruct (nth_error (w_ads w) src) as [sa|] eqn:ES; [|discriminate].
  unfold bind at 1, get_adapter at 1. destruct (nth_error (w_ads w) dst) as [da|] eqn:ED; [|discriminate].
  rewrite wd_calculate_main. unfold bind, get_state, call_duser. intros E. exists sa, da. eexists. split; [reflexivity|]. split; [reflexivity|]. split; [reflexivity|].
  destruct (wd_main _ D limit (mkDW w 0 [])) as [s [gs|e]]; cbn [fst snd dw_w dw_log] in E |- *; injection E as <- <- <-; auto.
Qed.

(** Read-only user code does no harm: without an exception the calls and the result are those of the plain calculation, and Diff.complete
    gets that diff.  With one, they are the same up to it. *)
Theorem C92_plain : forall limit dst src dc flags D w w1 r1 w' log r, w_ok w -> reading D ->
  diff_from limit dst src dc flags true w = (w1, r1) -> wide_diff limit dst src dc flags D w = (w', Ok (log, r)) ->
  read_only w w' /\ exists evs, w_trace w1 = w_trace w ++ evs /\
    let calls := (if du_cb D then flat_map call_of_event evs else []) ++ match r1 with Ok d => [DComplete d] | Err _ => [] end in
    (Forall no_raise log /\ map de_call log = calls /\
     match r1 with Ok d => exists u, In u log /\ de_call u = DComplete d /\ r = snd (du_complete D d (de_world u)) | Err x => r = Err x end) \/
    (exists l u x rest, log = l ++ [u] /\ Forall no_raise l /\ de_result u = Err x /\ r = Err x /\ calls = map de_call log ++ rest).
Proof.
  intros limit dst src dc flags D w w1 r1 w' log r OK HR EP EW. destruct (diff_run _ _ _ _ _ _ _ _ _ _ EW) as (sa & da & x & ES & ED & EX & H).
  destruct (diff_from_pure limit dst src dc flags true w sa da OK ES ED) as (w1' & EP' & _ & TR). rewrite EP in EP'. injection EP' as -> ->.
  set (p := pdiff limit flags w src dst sa da) in *. set (env := mkWD src dst flags (count_all w src + count_all w dst)) in *.
  destruct (dsim_main env D w OK HR sa da ES ED limit (mkDW w 0 []) (read_only_refl w)) as (l & L & RO & C). rewrite <- EX in *. cbn [dw_log dw_w dw_n app] in *.
  cbn [wd_flags wd_src wd_dst env] in C. fold p in C.
  assert (RD : forall d w2, read_only w2 (fst (du_complete D d w2))) by (intros d w2; exact (HR (DComplete d) w2)).
  split.
  { destruct (snd x) as [gs|e]; [destruct H as (-> & _)|destruct H as (-> & _); exact RO]. eapply read_only_trans; [exact RO|apply RD]. }
  exists (callbacks (count_all w src + count_all w dst) 0 (fst p)). split; [exact TR|]. cbv zeta. rewrite told_events.
  assert (CL : forall ks, called env D 0 ks = if du_cb D then told_by (count_all w src + count_all w dst) 0 ks else []) by reflexivity. rewrite <- CL.
  destruct C as [(F & N & T & V)|(l0 & u & e & ks1 & ks2 & El & F & EU & ER & Ep & T)].
  - rewrite N in H. cbn [plus] in H. destruct (snd x) as [gs|e], (snd p) as [gs'|e']; try contradiction.
    + unfold sameval in V. subst gs'. destruct H as (-> & -> & ->). set (d := mkDiff dc gs (list_sum (fst p))) in *.
      destruct (snd (du_complete D d (dw_w (fst x)))) as [d'|e] eqn:EC.
      * left. rewrite map_app, L, T. split; [apply Forall_app; split; [exact F|repeat constructor]|]. split; [reflexivity|].
        eexists. split; [apply in_app_iff; right; now left|]. split; [reflexivity|]. cbn. now rewrite EC.
      * right. rewrite L. exists l. eexists. exists e, []. split; [reflexivity|]. split; [exact F|]. split; [reflexivity|]. split; [reflexivity|].
        rewrite map_app, T, app_nil_r. reflexivity.
    + subst e'. destruct H as (-> & -> & ->). left. rewrite L. split; [exact F|]. rewrite app_nil_r. auto.
  - destruct (snd x) as [gs|e']; [discriminate|]. injection ER as ->. destruct H as (-> & -> & ->). right. rewrite L. exists l0, u, e.
    rewrite Ep, called_app, T. eexists. split; [exact El|]. split; [exact F|]. split; [exact EU|]. split; [reflexivity|]. rewrite <- app_assoc. reflexivity.
Qed.
Print Assumptions C92_plain.

(** The rest is true of any user code. *)
Lemma diff_log limit dst src dc flags D w w' log r : wide_diff limit dst src dc flags D w = (w', Ok (log, r)) ->
  let env := mkWD src dst flags (count_all w src + count_all w dst) in
  only_calls D w log w' /\ raises_last log r /\
  exists l n, ticks env D 0 l n /\
    ((log = l /\ exists x, r = Err x) \/
     exists u gs, log = l ++ [u] /\ Forall no_raise l /\ de_call u = DComplete (mkDiff dc gs n) /\ r = snd (du_complete D (mkDiff dc gs n) (de_world u)) /\
       all_in (known_elem env D w l) (children gs) /\ tally (children gs) <= n).
Proof.
  intros EW. destruct (diff_run _ _ _ _ _ _ _ _ _ _ EW) as (sa & da & x & ES & ED & EX & H). cbv zeta.
  set (env := mkWD src dst flags (count_all w src + count_all w dst)) in *.
  assert (I0 : Inv env D w (mkDW w 0 [])) by (split; [constructor; apply read_only_refl|split; constructor]).
  pose proof (fine_main env D w limit (mkDW w 0 []) I0 eq_refl) as (E & O & T & R). rewrite <- EX in *. unfold OC, TK in *.
  destruct (snd x) as [gs|e].
  - destruct H as (-> & -> & ->). destruct R as (F & G). set (u := mkDE _ _ _ _). split; [|split].
    + apply (only_calls_snoc D w (dw_log (fst x)) u); [exact O|]. reflexivity.
    + unfold u. destruct (snd (du_complete D _ _)) as [d'|e] eqn:EC.
      * left. apply Forall_app. split; [exact F|repeat constructor].
      * right. eexists. eexists. exists e. split; [reflexivity|]. auto.
    + exists (dw_log (fst x)), (dw_n (fst x)). split; [exact T|]. right. exists u, gs. destruct G. auto 10.
  - destruct H as (-> & -> & ->). split; [exact O|]. split.
    + destruct R as [R|(l & u & z & R1 & R2 & R3 & R4)]; [now left|]. right. exists l, u, z. intuition congruence.
    + exists (dw_log (fst x)), (dw_n (fst x)). split; [exact T|]. left. eauto.
Qed.

(** Between the calls of user code there is only reading: whatever else changed, user code did. *)
Theorem C92_only : forall limit dst src dc flags D w w' log r,
  wide_diff limit dst src dc flags D w = (w', Ok (log, r)) -> only_calls D w log w'.
Proof. intros. eapply diff_log; eauto. Qed.
Print Assumptions C92_only.

(** The exception of user code, of any kind, ends the calculation. *)
Theorem C92_exceptions : forall limit dst src dc flags D w w' log r,
  wide_diff limit dst src dc flags D w = (w', Ok (log, r)) -> raises_last log r.
Proof. intros. eapply diff_log; eauto. Qed.
Print Assumptions C92_exceptions.

Lemma ticks_shape env D n l n' : ticks env D n l n' -> exists ns, map de_call l = map (fun i => DProgress i (wd_total env)) ns /\
  StronglySorted lt ns /\ Forall (lt n) ns /\ (du_cb D = true -> n' = last ns n) /\ (du_cb D = false -> ns = []) /\ n <= n'.
Proof.
  intros H. induction H as [n|n n' C L|n u k l n' C L E H (ns & A & B & F & G1 & _ & G2)].
  - exists []. repeat split; constructor.
  - exists []. repeat split; try constructor; auto. congruence.
  - exists (k :: ns). cbn [map]. rewrite E, A. split; [reflexivity|]. split; [now constructor|]. split; [constructor; [exact L|eapply Forall_impl'; [|exact F]; intros; lia]|].
    split; [|split; [congruence|lia]]. intros X. rewrite (G1 X). cbn. destruct ns as [|i ns]; [reflexivity|]. clear. revert i. induction ns as [|j ns IH]; intros i; [reflexivity|]. exact (IH j).
Qed.
(** The callback is given growing numbers and the numbers of objects that were stored at the start, in this order.  Diff.complete comes
    last and at most once; its diff carries the last number and has no more elements than that.  Its outcome is the result, and without
    an exception there is no other. *)
Theorem C92_progress : forall limit dst src dc flags D w w' log r,
  wide_diff limit dst src dc flags D w = (w', Ok (log, r)) ->
  exists ns, StronglySorted lt (0 :: ns) /\ (du_cb D = false -> ns = []) /\
  let told := map (fun n => DProgress n (count_all w src + count_all w dst)) ns in
  (map de_call log = told /\ exists x, r = Err x) \/
  exists d u, map de_call log = told ++ [DComplete d] /\ In u log /\ de_call u = DComplete d /\ r = snd (du_complete D d (de_world u)) /\
    d_class d = dc /\ (du_cb D = true -> d_processed d = last ns 0) /\ length (tree_all (d_groups d)) <= d_processed d.
Proof.
  intros limit dst src dc flags D w w' log r E. destruct (diff_log _ _ _ _ _ _ _ _ _ _ E) as (_ & _ & l & n & T & C).
  destruct (ticks_shape _ _ _ _ _ T) as (ns & A & B & F & G1 & G2 & _). cbn [wd_total] in A. exists ns. split; [now constructor|]. split; [exact G2|]. cbv zeta.
  destruct C as [(-> & X)|(u & gs & -> & _ & EC & ER & K & TL)]; [left; auto|]. right. exists (mkDiff dc gs n), u. rewrite map_app, A. cbn [map]. rewrite EC.
  split; [reflexivity|]. split; [apply in_app_iff; right; now left|]. split; [reflexivity|]. split; [exact ER|]. split; [reflexivity|]. split; [exact G1|].
  cbn [d_groups d_processed]. rewrite tree_all_children, length_flat. exact TL.
Qed.
Print Assumptions C92_progress.

Lemma complete_in limit dst src dc flags D w w' log r u d : wide_diff limit dst src dc flags D w = (w', Ok (log, r)) -> In u log -> de_call u = DComplete d ->
  all_in (known_elem (mkWD src dst flags (count_all w src + count_all w dst)) D w log) (children (d_groups d)).
Proof.
  intros E I EC. destruct (diff_log _ _ _ _ _ _ _ _ _ _ E) as (_ & _ & l & n & T & C).
  assert (NC : forall v, In v l -> de_call v <> DComplete d).
  { intros v J X. destruct (ticks_shape _ _ _ _ _ T) as (ns & A & _). apply (in_map de_call) in J. rewrite A, X in J. apply in_map_iff in J as (? & Y & _). discriminate. }
  destruct C as [(-> & _)|(v & gs & -> & _ & EV & _ & K & _)]; [destruct (NC u I EC)|]. apply in_app_iff in I as [I|[<-|[]]]; [destruct (NC u I EC)|].
  rewrite EV in EC. injection EC as <-. cbn [d_groups]. intros e x J1 J2. apply known_app. exact (K e x J1 J2).
Qed.
(** Each element shows its two objects as they were at one moment at which no user code had run since: if there is a callback, at the
    moment when it was called for them.  The objects carried no flag then that forbids the element, and were taken from the two adapters. *)
Theorem C92_elements : forall limit dst src dc flags D w w' log r u d e,
  wide_diff limit dst src dc flags D w = (w', Ok (log, r)) -> In u log -> de_call u = DComplete d -> occurs e (d_groups d) ->
  exists so do w1 wp, at_rest w log w1 /\ read_only w1 wp /\
    (du_cb D = true -> exists v n t, In v log /\ de_call v = DProgress n t /\ wp = de_world v) /\
    pictures wp src dst flags so do e /\ was_held w log src so /\ was_held w log dst do.
Proof.
  intros limit dst src dc flags D w w' log r u d e E I EC OE. apply occurs_children in OE as (x & J1 & J2).
  destruct (complete_in _ _ _ _ _ _ _ _ _ _ _ _ E I EC x e J1 J2) as ((so & do & w1 & wp & C & R & U & P) & _). exists so, do, w1, wp.
  split; [exact C|]. split; [exact R|]. split; [|exact P]. intros CB. destruct (U CB) as (v & k & V). exists v, k, (count_all w src + count_all w dst). exact V.
Qed.
Print Assumptions C92_elements.

(** Below an element to create there are such elements only, and likewise below one to delete. *)
Theorem C92_whole : forall limit dst src dc flags D w w' log r u d e k,
  wide_diff limit dst src dc flags D w = (w', Ok (log, r)) -> In u log -> de_call u = DComplete d ->
  occurs e (d_groups d) -> In k (children (e_kids e)) ->
  (e_action e = Some ACreate -> e_action k = Some ACreate) /\ (e_action e = Some ADelete -> e_action k = Some ADelete).
Proof.
  intros limit dst src dc flags D w w' log r u d e k E I EC OE IK. apply occurs_children in OE as (x & J1 & J2).
  destruct (complete_in _ _ _ _ _ _ _ _ _ _ _ _ E I EC x e J1 J2) as (_ & KS & KD). split; intros A.
  - apply action_create in A as [_ A]. destruct (KD A k IK) as [X Y]. now apply action_create.
  - apply action_delete in A as [A _]. destruct (KS A k IK) as [X Y]. now apply action_delete.
Qed.
Print Assumptions C92_whole.

(** A synchronisation with arbitrary user code in both phases: if Diff.complete leaves the diff as it is, then the hooks are called in
    its order and each for an element that asks for it (C91), and exceptions end it as before. *)
Theorem C92_sync : forall limit limit' D U dst src dc flags w w' dl ul r,
  (forall d w d', snd (du_complete D d w) = Ok d' -> d' = d) -> wide_both limit limit' D U dst src dc flags w = (w', dl, ul, r) ->
  (ul = [] /\ (exists x, r = Err x) /\ raises_last dl r) \/
  exists u d k, In u dl /\ de_call u = DComplete d /\ Forall no_raise dl /\
    visits (dc_order dc) dst (ordered (dc_order dc) (fun x => x) (d_groups d)) (hook_log ul) /\
    numbers ul = (if u_cb U then map (fun i => (i, diff_len d)) (seq 1 k) else []) /\ orderly flags ul r.
Proof.
  intros limit limit' D U dst src dc flags w w' dl ul r HC. unfold wide_both.
  destruct (wide_diff limit dst src dc flags D w) as [w1 [[l [d|x]]|x]] eqn:E.
  - destruct (diff_log _ _ _ _ _ _ _ _ _ _ E) as (_ & RL & l0 & n & T & C). destruct C as [(_ & x & X)|(u & gs & EL & F & EC & ER & K & TL)]; [discriminate|].
    assert (d = mkDiff dc gs n) as -> by (eapply HC; symmetry; exact ER).
    intros X. right. remember (wide_run _ U limit' _ _) as R eqn:ERun. destruct R as [s' r']. cbn [fst snd] in X. injection X as <- <- <- <-. symmetry in ERun.
    assert (IU : In u l) by (rewrite EL; apply in_app_iff; right; now left).
    assert (DW : deletes_whole gs).
    { intros e k OE A J. now apply (C92_whole _ _ _ _ _ _ _ _ _ _ _ _ e k E IU EC OE J). }
    destruct (run_log _ _ _ (mkDiff dc gs n) _ _ _ DW ERun) as (l1 & k & z & L & A & V & N & _ & O & Z). cbn [sv_dst sv_flags sv_total d_class d_groups] in *.
    assert (NZ : numbers z = [] /\ hook_log z = []) by (destruct Z as [(-> & _)|(v & -> & CV & _)]; [now split|]; cbn; now rewrite CV).
    exists u, (mkDiff dc gs n), k. split; [exact IU|]. split; [exact EC|].
    split; [destruct RL as [RL|(? & ? & ? & _ & _ & _ & X)]; [exact RL|discriminate]|].
    rewrite L, hook_log_app, numbers_app. destruct NZ as [-> ->]. rewrite !app_nil_r. cbn [d_groups]. auto.
  - intros X. injection X as <- <- <- <-. left. split; [reflexivity|]. split; [now eexists|]. destruct (diff_log _ _ _ _ _ _ _ _ _ _ E) as (_ & [RL|(a & b & c & A & B & C & X)] & _); [now left|].
    right. exists a, b, c. intuition congruence.
  - intros X. injection X as <- <- <- <-. left. split; [reflexivity|]. split; [now eexists|]. left. constructor.
Qed.
Print Assumptions C92_sync.

(** *** examples *)
Definition D_plain : duser := mkDU (fun n t => emit (EvCallback "diff" n t)) (fun d => ret d) true.
(** the callback raises as soon as five objects are done *)
Definition D_nervous : duser := mkDU (fun n t => if Nat.leb 5 n then raise ExnValueError else ret tt) (fun d => ret d) true.
(** the first call of the callback moves the destination's site nyc and gives its device r1 a new role *)
Definition D_busy : duser :=
  mkDU (fun n t => if Nat.eqb n 2 then hset 6 (mk_site "nyc" "south" ["r1"; "r3"] 0 1) ;;; hset 7 (mk_device "r1" "edge" ["r1__eth0"; "r1__lo"] 0 1) else ret tt)
       (fun d => ret d) true.
(** the first call removes a device from the destination, which its site goes on listing *)
Definition D_rude : duser := mkDU (fun n t => if Nat.eqb n 2 then st_remove 20 1 8 false else ret tt) (fun d => ret d) true.
Definition run_wide (D : duser) : list dentry * result diff :=
  match wide_diff 20 1 0 base_class 0 D w0 with (_, Ok x) => x | (_, Err e) => ([], Err e) end.
Definition told_numbers (l : list dentry) : list nat := map (fun u => match de_call u with DProgress n _ => n | DComplete _ => 0 end) l.
Definition outcome_of {A} (r : result A) : option exn := match r with Ok _ => None | Err x => Some x end.
(** what the diff says of the destination's site nyc and of its device r1 *)
Definition seen (d : diff) : list (string * string) :=
  flat_map (fun e => match e_dst e with
                     | Some ((k, VStr v) :: _) => if existsb (String.eqb (e_name e)) ["nyc"; "r1"] then [(k, v)] else []
                     | _ => []
                     end) (tree_all (d_groups d)).
Definition seen_text (d : diff) : string := String.concat "" (map (fun kv => fst kv ++ snd kv)%string (seen d)).

Lemma plain_reading : reading D_plain.
Proof. intros [n t|d] w; cbn; [apply read_only_event|apply read_only_refl]. Qed.
Lemma nervous_reading : reading D_nervous.
Proof. intros [n t|d] w; cbn [run_dcall D_nervous du_progress du_complete]; [destruct (Nat.leb 5 n)|]; apply read_only_refl. Qed.
Example C92_plain_ex : reading D_plain /\ w_ok w0 /\ snd (run_wide D_plain) = snd (diff_from 20 1 0 base_class 0 true w0) /\
  told_numbers (fst (run_wide D_plain)) = [2; 4; 6; 7; 8; 9; 10; 11; 12; 13; 0].
Proof. split; [exact plain_reading|]. split; [apply w0_ok|]. split; vm_compute; reflexivity. Qed.
Example C92_exceptions_ex : reading D_nervous /\ told_numbers (fst (run_wide D_nervous)) = [2; 4; 6] /\ outcome_of (snd (run_wide D_nervous)) = Some ExnValueError /\
  told_numbers (fst (run_wide D_rude)) = [2] /\ outcome_of (snd (run_wide D_rude)) = Some ObjectNotFound.
Proof. split; [exact nervous_reading|]. repeat split; vm_compute; reflexivity. Qed.
(** Site nyc is shown as it was, its device r1 as it is then *)
Example C92_elements_ex :
  match snd (run_wide D_busy) with
  | Ok d => seen d = [("region", "east"); ("role", "edge")] /\ length (tree_all (d_groups d)) <= d_processed d
  | Err _ => False
  end.
Proof. vm_compute. split; [reflexivity|lia]. Qed.
Example C92_sync_ex :
  match wide_both 20 20 D_busy (user_of 0 1 default_hooks true) 1 0 base_class 0 w0 with
  | (w', dl, ul, r) => length dl = 11 /\ length (hook_log ul) = 8 /\ outcome_of r = None /\
      match nth_error (w_heap w') 6 with Some o => dget (o_vals o) "region" | None => None end = Some (VStr "south")
  end.
Proof. vm_compute. repeat split. Qed.

Lemma moment_check w log d :
  forallb (fun w1 => match snd (diff_from 20 1 0 base_class 0 false w1) with Ok d1 => negb (String.eqb (seen_text d1) (seen_text d)) | Err _ => false end) (w :: map de_after log) = true ->
  forall w1, at_rest w log w1 -> exists d1, snd (diff_from 20 1 0 base_class 0 false w1) = Ok d1 /\ d_groups d1 <> d_groups d.
Proof.
  intros H w1 AR. rewrite forallb_forall in H. assert (J : In w1 (w :: map de_after log)) by (destruct AR as [->|(u & I & ->)]; [now left|right; now apply in_map]).
  specialize (H w1 J). destruct (snd (diff_from 20 1 0 base_class 0 false w1)) as [d1|e]; [|discriminate].
  exists d1. split; [reflexivity|]. intros E. assert (X : seen_text d1 = seen_text d) by (unfold seen_text, seen; now rewrite E). rewrite X, String.eqb_refl in H. discriminate.
Qed.
Definition d_torn : diff := match snd (run_wide D_busy) with Ok d => d | Err _ => empty_diff base_class end.
(** Such a diff need not be the diff of the adapters at any moment: here no world between the calls of user code has it. *)
Theorem C92_moment_refuted : exists D w log d, snd (wide_diff 20 1 0 base_class 0 D w) = Ok (log, Ok d) /\
  forall w1, at_rest w log w1 -> exists d1, snd (diff_from 20 1 0 base_class 0 false w1) = Ok d1 /\ d_groups d1 <> d_groups d.
Proof. exists D_busy, w0, (fst (run_wide D_busy)), d_torn. split; [vm_compute; reflexivity|]. apply moment_check. vm_compute. reflexivity. Qed.
Print Assumptions C92_moment_refuted.
