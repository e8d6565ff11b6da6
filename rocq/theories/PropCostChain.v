(** * PropCostChain: the commands of a synchronisation can be exponential in its diff (C107, continued). *)
From Verif Require Import CostNat Samples ServerSample PropServer PropCut PropCutSync PropCost PropCostDiff PropCostNat.

(** [n] deletions of the site z one below the other, and at the bottom an element without a difference *)
Fixpoint e_deep (n : nat) : elem := match n with 0 => e_leaf | S n' => e_over "z" (e_deep n') end.
Definition x_deep (n : nat) : diff := mkDiff base_class [("site", [("z", e_deep n)])] 0.
(** all that is on the server; it does not change, as nothing is sent but GETs *)
Definition d_deep : dict obj := [("diffsync:green:site:z", mk_site "z" "east" [] 16 1)]%string.
Definition asked (d : dict obj) (l : list wire) : Prop := forall m, In m l -> exists k, m = WGet k (dget d k).
Lemma asked_app d l l' : asked d l -> asked d l' -> asked d (l ++ l').
Proof. intros H H' m I. apply in_app_or in I as [I|I]; auto. Qed.
Lemma talk_join {A} (p q r : cprog A) l l' : talk p l q -> talk q l' r -> talk p (l ++ l') r.
Proof. intros T T'. induction T; cbn [app]; try constructor; auto. Qed.

Definition does {A} (m : SM sstate A) (s : sstate) (l : list wire) (s' : sstate) (x : A) : Prop := talk (m s) l (Done (s', Ok x)).
Lemma does_bind {A B} (m : SM sstate A) (k : A -> SM sstate B) s l s1 x l' s' y : does m s l s1 x -> does (k x) s1 l' s' y -> does (cbind m k) s (l ++ l') s' y.
Proof. intros H K. unfold does, cbind. eapply talk_join; [exact (talk_then _ _ _ _ H)|]. exact K. Qed.
Lemma does_here {A} (m : M sstate A) s s' x : m s = (s', Ok x) -> does (here m) s [] s' x.
Proof. intros H. unfold does, here. rewrite H. constructor. Qed.
Lemma does_first {A B} (m : M sstate A) (k : A -> SM sstate B) s s1 x l s' y : m s = (s1, Ok x) -> does (k x) s1 l s' y -> does (cbind (here m) k) s l s' y.
Proof. intros H K. exact (does_bind (here m) k s [] s1 x l s' y (does_here m s s1 x H) K). Qed.

Section Deep.
  Variables (fuel total : nat) (rd : dict obj) (tr : list event).
  Notation env := (mkSEnv 0 1 0%N total false (unseeing default_hooks) fuel).
  Notation ads := (w_ads w_pay).
  Notation W h := (mkWorld h ads rd tr).
  Definition ids_z : dict val := [("name"%string, VStr "z")].
  Lemma deep_get h : exists h' o, talk (c_get_dst_model env c_site ids_z (W h)) [WGet "diffsync:green:site:z" (dget d_deep "diffsync:green:site:z")] (Done (W h', Ok (Some (length h)))) /\
    nth_error h' (length h) = Some o /\ o_flags o = 16%N.
  Proof.
    set (o := set_o_adapter (mk_site "z" "east" [] 16 1) (Some 1)).
    assert (H1 : nth_error (h ++ [o]) (length h) = Some o) by (rewrite nth_error_app2, Nat.sub_diag by lia; reflexivity).
    exists (list_set (h ++ [o]) (length h) (set_status o StUnknown "")), (set_status o StUnknown ""). split; [|split; [exact (nth_list_set_eq _ _ _ _ H1)|reflexivity]].
    unfold c_get_dst_model, ctry, cbind at 1, c_get, cbind at 1. cbn [here cthen].
    change (get_adapter (sv_dst env) (W h)) with (W h, @Ok adapter (mk_ad "dst" (SRedis "green"))). cbn [fst snd]. unfold cbind at 1. cbn [here cthen]. unfold lift. cbn [fst snd].
    change (get_uid (fst (object_class_and_model (mk_ad "dst" (SRedis "green")) (MClass c_site))) (IdDict ids_z)) with (@Ok string "z"%string). cbn [cthen fst snd ad_store mk_ad].
    unfold c_load, cbind, cget. cbn [here cthen fst snd]. apply talk_get. change (dget d_deep "diffsync:green:site:z") with (Some (mk_site "z" "east" [] 16 1)).
    cbn [here cthen halloc fst snd sv_dst]. fold o. unfold mutate, bind, hget. cbn [set_heap w_heap w_ads w_redis w_trace]. repeat match goal with |- context [nth_error ?l0 ?n0] => replace (nth_error l0 n0) with (Some o) by (symmetry; exact H1) end. cbn [fst snd hset modify lift ret cthen here set_heap w_heap w_ads w_redis w_trace]. constructor.
  Qed.
  (** up to the flags of the model, for the elements of the chain *)
  Lemma deep_body e p kids h n a c x : e_type e = "site"%string -> e_keys e = ids_z ->
    exists h1 r l1, length l1 = 2 /\ asked d_deep l1 /\ forall l s' b,
      does (cbind (if is_delete (e_action e) then c_run_kids kids (Some r) false else here (ret false)) (fun _ =>
            cbind (here (sync_model env (Some r) ids_z (match ad_plus (e_attrs_diffs e) with Some p => p | None => [] end))) (fun cm =>
            match snd cm with
            | None => here (slog LWarning None "No object resulted from sync, will not process child objects." ;;; ret (fst cm))
            | Some r => cbind (here get_state) (fun s => cbind (cslift (c_apply_to_store env (ss_action s) p r false)) (fun stop : bool =>
                if stop then here (ret (fst cm)) else cbind (here (incr_elements_processed env)) (fun _ => if negb (is_delete (ss_action s)) then c_run_kids kids (Some r) (fst cm) else here (ret (fst cm)))))
            end))) (mkSS (W h1) n (e_action e) (Some c_site) (Some (mkCtx (e_action e) "site" "z"))) l s' b ->
      does (c_sync_body env e p kids) (mkSS (W h) n a c x) (l1 ++ l) s' b.
  Proof.
    intros ET EK. destruct (deep_get h) as (h1 & o & T & N1 & F). exists h1, (length h), [WGet "diffsync:blue:site:z" None; WGet "diffsync:green:site:z" (dget d_deep "diffsync:green:site:z")].
    split; [reflexivity|]. split; [intros m [<-|[<-|[]]]; [exists "diffsync:blue:site:z"%string|exists "diffsync:green:site:z"%string]; reflexivity|].
    intros l s' b H. unfold c_sync_body. rewrite ET, EK.
    eapply does_first; [reflexivity|]. eapply does_first; [reflexivity|]. eapply does_first; [reflexivity|]. eapply does_first; [reflexivity|]. eapply does_first; [reflexivity|]. cbv zeta. cbn [ss_w ss_n ss_class ss_action ss_ctx set_ss_w].
    match goal with |- does _ _ ([?g1; ?g2] ++ l) _ _ => change (([g1; g2] ++ l)) with ([g1] ++ ([g2] ++ l)) end.
    eapply (does_bind _ _ _ _ (mkSS (W h) n (e_action e) (Some c_site) (Some (mkCtx (e_action e) "site" "z"))) None).
    { unfold does, cslift. refine (talk_then (c_get_or_none 0 (MClass c_site) (IdDict ids_z) (W h)) (fun wx => Done (set_ss_w _ (fst wx), snd wx)) _ (W h, Ok None) _).
      change (c_get_or_none 0 (MClass c_site) (IdDict ids_z) (W h)) with (ctry (cbind (c_load 0 "diffsync:blue:site:z") (fun r => here (ret (Some r)))) is_not_found (fun _ => here (ret None)) (W h)).
      unfold ctry, c_load, cbind, cget. cbn [here cthen fst snd]. apply talk_get. cbn. constructor. }
    eapply (does_bind _ _ _ _ (mkSS (W h1) n (e_action e) (Some c_site) (Some (mkCtx (e_action e) "site" "z"))) (Some (length h))).
    { unfold does, cslift. exact (talk_then _ (fun wx => Done (set_ss_w (mkSS (W h) n (e_action e) (Some c_site) (Some (mkCtx (e_action e) "site" "z"))) (fst wx), snd wx)) _ _ T). }
    eapply (does_first _ _ _ (mkSS (W h1) n (e_action e) (Some c_site) (Some (mkCtx (e_action e) "site" "z"))) true).
    { unfold slift, model_flag, bind, hget. cbn [ss_w w_heap]. rewrite N1. cbn [ret]. rewrite F. reflexivity. }
    eapply (does_first _ _ _ (mkSS (W h1) n (e_action e) (Some c_site) (Some (mkCtx (e_action e) "site" "z"))) false).
    { unfold slift, model_flag, bind, hget. cbn [ss_w w_heap]. rewrite N1. cbn [ret]. rewrite F. reflexivity. }
    eapply does_first; [reflexivity|]. cbn [ss_action negb andb orb]. rewrite andb_true_r. exact H.
  Qed.
  (** the rest, when there is no action *)
  Lemma deep_rest p kids attrs r h n c x l s' b :
    does (c_run_kids kids (Some r) false) (mkSS (W h) (S n) None c x) l s' b ->
    does (cbind (here (sync_model env (Some r) ids_z attrs)) (fun cm =>
            match snd cm with
            | None => here (slog LWarning None "No object resulted from sync, will not process child objects." ;;; ret (fst cm))
            | Some r => cbind (here get_state) (fun s => cbind (cslift (c_apply_to_store env (ss_action s) p r false)) (fun stop : bool =>
                if stop then here (ret (fst cm)) else cbind (here (incr_elements_processed env)) (fun _ => if negb (is_delete (ss_action s)) then c_run_kids kids (Some r) (fst cm) else here (ret (fst cm)))))
            end)) (mkSS (W h) n None c x) l s' b.
  Proof.
    intros H. eapply does_first; [reflexivity|]. cbn [fst snd]. eapply does_first; [reflexivity|]. cbn [ss_action c_apply_to_store].
    refine (does_bind _ _ _ [] (mkSS (W h) n None c x) false l s' b _ _); [apply talk_none|]. cbn iota.
    eapply does_first; [reflexivity|]. cbn [is_delete negb ss_n sv_cb ss_w ss_action ss_class ss_ctx]. exact H.
  Qed.
  Lemma deep_elem k : forall p h n a c x, exists l h' n' c' x' b, length l + 2 = 2 ^ (k + 2) /\ asked d_deep l /\
    does (c_sync_elem order_default env (e_deep k) p) (mkSS (W h) n a c x) l (mkSS (W h') n' None c' x') b.
  Proof.
    induction k as [|k IH]; intros p h n a c x.
    - destruct (deep_body (e_deep 0) p [] h n a c x eq_refl eq_refl) as (h1 & r & l1 & L1 & A1 & H).
      exists (l1 ++ []), h1, (S n), (Some c_site), (Some (mkCtx None "site" "z")), false. split; [rewrite app_length, L1; reflexivity|]. split; [now rewrite app_nil_r|].
      apply H. change (e_action (e_deep 0)) with (@None action). cbn [is_delete]. eapply does_first; [reflexivity|]. apply deep_rest. apply talk_none.
    - set (kids := [c_sync_elem order_default env (e_deep k)]).
      assert (Z : c_sync_elem order_default env (e_deep (S k)) p = c_sync_body env (e_deep (S k)) p kids) by reflexivity. rewrite Z.
      assert (KK : forall q h n a c x, exists l h' n' c' x' b, length l + 2 = 2 ^ (k + 2) /\ asked d_deep l /\ does (c_run_kids kids q false) (mkSS (W h) n a c x) l (mkSS (W h') n' None c' x') b).
      { intros q h0 n0 a0 c0 x0. destruct (IH q h0 n0 a0 c0 x0) as (l & h' & n' & c' & x' & b & L & A & D). exists (l ++ []), h', n', c', x', b. rewrite app_nil_r. split; [exact L|]. split; [exact A|].
        rewrite <- (app_nil_r l). unfold kids. cbn [c_run_kids]. eapply does_bind; [exact D|]. apply talk_none. }
      destruct (deep_body (e_deep (S k)) p kids h n a c x eq_refl eq_refl) as (h1 & r & l1 & L1 & A1 & H). change (e_action (e_deep (S k))) with (Some ADelete) in H.
      destruct (KK (Some r) h1 n (Some ADelete) (Some c_site) (Some (mkCtx (Some ADelete) "site" "z"))) as (l2 & h2 & n2 & c2 & x2 & b2 & L2 & A2 & D2).
      destruct (KK (Some r) h2 (S n2) None c2 x2) as (l3 & h3 & n3 & c3 & x3 & b3 & L3 & A3 & D3).
      exists (l1 ++ (l2 ++ l3)), h3, n3, c3, x3, b3. split; [rewrite !app_length, L1; cbn [Nat.add Nat.pow]; lia|]. split; [now repeat apply asked_app|].
      apply H. cbn [is_delete]. eapply does_bind; [exact D2|]. apply deep_rest. exact D3.
  Qed.
End Deep.
Lemma deep_len k : diff_len (x_deep k) = S k.
Proof.
  assert (X : elem_len order_default (e_deep k) = S k). { induction k as [|k IH]; [reflexivity|]. change (elem_len order_default (e_deep (S k))) with (1 + (elem_len order_default (e_deep k) + 0)). rewrite IH. lia. }
  change (diff_len (x_deep k)) with (elem_len order_default (e_deep k) + 0). rewrite X. lia.
Qed.
(** [k] + 1 elements, 2^([k]+2) - 2 commands, none of which changes anything *)
Theorem C107_exponential : forall k, diff_len (x_deep k) = S k /\ exists l w', length l + 2 = 2 ^ (k + 2) /\ asked d_deep l /\
  talk (issued 1 (KSync 20 default_hooks 0 base_class 0 false (Some (x_deep k))) w_pay) l (Done (w', Ok (RDiff (x_deep k)))).
Proof.
  intros k. split; [apply deep_len|].
  destruct (deep_elem 20 (diff_len (x_deep k)) [] [] k None (w_heap w_pay) 0 None None None) as (l & h' & n' & c' & x' & b & L & A & D).
  set (w1 := mkWorld h' (w_ads w_pay) [] []) in *.
  exists l, (if b then add_event w1 (EvSyncComplete 0 1) else w1). split; [exact L|]. split; [exact A|].
  assert (P : talk (c_perform_sync (mkSEnv 0 1 0 (diff_len (x_deep k)) false (unseeing default_hooks) 20) (x_deep k) (mkSS w_pay 0 None None None)) l (Done (mkSS w1 n' None c' x', Ok b))).
  { rewrite <- (app_nil_r l). exact (does_bind _ (fun b0 => c_run_kids [] None (false || b0)) _ _ _ _ [] _ _ D (talk_none _)). }
  assert (R : talk (c_run_sync (mkSEnv 0 1 0 (diff_len (x_deep k)) false (unseeing default_hooks) 20) (x_deep k) w_pay) l (Done (if b then add_event w1 (EvSyncComplete 0 1) else w1, Ok (x_deep k)))).
  { unfold c_run_sync, cbind. pose proof (talk_then _ (fun r : sstate * result bool => Done (ss_w (fst r), snd r)) _ _ P) as Q. cbn [fst snd ss_w] in Q.
    eapply talk_then in Q. rewrite <- (app_nil_r l). eapply talk_join; [exact Q|]. destruct b; apply talk_none. }
  assert (S : c_sync_from 20 (unseeing default_hooks) 1 0 base_class 0 false (Some (x_deep k)) w_pay = c_run_sync (mkSEnv 0 1 0 (diff_len (x_deep k)) false (unseeing default_hooks) 20) (x_deep k) w_pay).
  { unfold c_sync_from. assert (DT : diff_truthy (Some (x_deep k)) = true) by (cbn [diff_truthy]; rewrite deep_len; reflexivity). rewrite DT. reflexivity. }
  cbn [issued]. unfold cfmap, cbind at 1. rewrite S. rewrite <- (app_nil_r l). eapply talk_join; [eapply talk_then; exact R|]. apply talk_none.
Qed.
Print Assumptions C107_exponential.
Lemma deep_grows c : c * S c + 2 < 2 ^ (c + 2).
Proof.
  assert (G : forall c, 2 * S c <= 2 ^ (c + 2)) by (induction c0 as [|c0 IH]; [cbn; lia|]; change (2 ^ (S c0 + 2)) with (2 * 2 ^ (c0 + 2)); lia).
  induction c as [|c IH]; [cbn; lia|]. change (2 ^ (S c + 2)) with (2 * 2 ^ (c + 2)). specialize (G c). nia.
Qed.
(** So there is no number of commands for each element that is enough for all diffs. *)
Theorem C107_linear_refuted : ~ (exists c, forall fuel h dst src dc flags cb d w l q, to_redis dst w -> diff_len d <> 0 ->
  (forall k o, In (WGet k (Some o)) l -> N.testbit (o_flags o) 1 = false) ->
  talk (issued dst (KSync fuel h src dc flags cb (Some d)) w) l q -> length l <= c * diff_len d).
Proof.
  intros (c & H). destruct (C107_exponential c) as (DL & l & w' & L & A & T).
  assert (X : length l <= c * diff_len (x_deep c)).
  { refine (H _ _ _ _ _ _ _ _ _ _ _ _ _ _ T); [eexists _, "green"%string; split; reflexivity|rewrite DL; discriminate|].
    intros k o I. destruct (A _ I) as (k' & E). injection E as <- E. unfold d_deep in E. cbn [dget] in E. destruct (String.eqb _ _); [injection E as ->; reflexivity|discriminate E]. }
  rewrite DL in X. pose proof (deep_grows c). lia.
Qed.
Print Assumptions C107_linear_refuted.
(** The commands of the theorem are those that a server with [d_deep] gets. *)
Example C107_deep_example : forall k, In k [0; 1; 2; 3; 4] ->
  let l := log_of d_deep 1 (KSync 20 default_hooks 0 base_class 0 false (Some (x_deep k))) w_pay in
  length l + 2 = 2 ^ (k + 2) /\ is_done d_deep 1 (KSync 20 default_hooks 0 base_class 0 false (Some (x_deep k))) w_pay = true.
Proof. intros k I. repeat destruct I as [<-|I]; [..|destruct I]; vm_compute; split; reflexivity. Qed.
