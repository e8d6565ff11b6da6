(** * ConcTop: isolation, termination and concurrent additions. *)
From Coq Require Import Lia.
From Verif Require Export ConcSystem.

Lemma NoDup_parts {A} (ls : list (list A)) : NoDup (concat ls) -> forall n m l l' x, n <> m -> nth_error ls n = Some l -> nth_error ls m = Some l' -> In x l -> ~ In x l'.
Proof.
  induction ls as [|l0 ls IH]; intros ND n m l l' x NE N M I J; [destruct n; discriminate|]. cbn [concat] in ND.
  assert (D : forall y, In y l0 -> ~ In y (concat ls)).
  { clear -ND. induction l0 as [|z l0 IH]; intros y; [easy|]. cbn in ND. apply NoDup_cons_iff in ND as (N & ND). intros [<-|I]; [intros J; apply N, in_or_app; now right|now apply IH]. }
  assert (ND' : NoDup (concat ls)) by (clear -ND; induction l0 as [|z l0 IH]; [exact ND|cbn in ND; apply NoDup_cons_iff in ND as (_ & ND); now apply IH]).
  destruct n as [|n], m as [|m]; cbn [nth_error] in *; [congruence| | |].
  - injection N as <-. apply (D x I), in_concat. exists l'. split; [now apply nth_error_In in M|exact J].
  - injection M as <-. apply (D x J), in_concat. exists l. split; [now apply nth_error_In in N|exact I].
  - apply (IH ND' n m l l' x); auto.
Qed.
Lemma isolation ps d d' qs : NoDup (concat (map pr_ids ps)) -> Forall (fun p => (forall i, In i (pr_ids p) -> plain i = true) /\ sound_process p) ps ->
  many sys_step (d, map started ps) (d', qs) ->
  (forall n p w' rs, nth_error ps n = Some p -> nth_error qs n = Some (Done (w', rs)) ->
     let run := made_all (pr_calls p) (set_redis (pr_world p) d) in
     rs = snd run /\ w' = set_redis (fst run) [] /\ share (pr_ids p) d' = share (pr_ids p) (w_redis (fst run))) /\
  unshared (concat (map pr_ids ps)) d' = unshared (concat (map pr_ids ps)) d.
Proof.
  intros ND F R. rewrite Forall_forall in F.
  assert (PL : forall n P, nth_error (map (fun p => in_stores (pr_ids p)) ps) n = Some P -> exists p, nth_error ps n = Some p /\ P = in_stores (pr_ids p) /\ (forall i, In i (pr_ids p) -> plain i = true) /\ sound_process p).
  { intros n P H. rewrite nth_error_map in H. destruct (nth_error ps n) as [p|] eqn:E; [|discriminate]. injection H as <-. exists p. destruct (F p (nth_error_In _ _ E)). auto. }
  destruct (kept_apart (map (fun p => in_stores (pr_ids p)) ps) _ _ R) as (L & EACH & REST).
  - intros n m P O NE N M k K. apply PL in N as (p & N & -> & PP & _). apply PL in M as (q & M & -> & PQ & _). apply (stores_separate (pr_ids q)); auto.
    intros i I. apply (NoDup_parts _ ND m n (pr_ids q) (pr_ids p)); auto; now rewrite nth_error_map, ?M, ?N.
  - intros n P p N M. cbn [snd] in M. apply PL in N as (q & N & -> & PP & (_ & OW)). rewrite nth_error_map, N in M. injection M as <-.
    eapply confined_any; [|exact (tame_history _ PP (pr_calls q) (pr_world q) OW)]. auto.
  - cbn [snd]. now rewrite !map_length.
  - cbn [fst snd] in L, EACH, REST. split.
    + intros n p w' rs N Q run. pose proof (F p (nth_error_In _ _ N)) as (PP & RE & OW).
      destruct (EACH n (in_stores (pr_ids p)) (started p)) with (e := d) as (p' & e' & N' & R' & E'); [now rewrite nth_error_map, N|now rewrite nth_error_map, N|reflexivity|].
      rewrite Q in N'. injection N' as <-. apply solo_runs in R'. cbn [fst snd] in R'. unfold started in R'. rewrite (history_alone _ _ _ RE) in R'. cbn [solo] in R'. fold run in R'.
      injection R' as E1 E2 E3. split; [now symmetry|]. split; [now symmetry|]. unfold share. unfold part in E'. now rewrite E', E1.
    + apply (REST (fun k => negb (in_stores (concat (map pr_ids ps)) k))). intros n P k N K. apply PL in N as (p & N & -> & _). apply negb_false_iff, existsb_exists.
      apply existsb_exists in K as (i & I & K). exists i. split; [|exact K]. apply in_concat. exists (pr_ids p). split; [|exact I]. apply in_map. now apply nth_error_In in N.
Qed.

(** ** Every run ends *)
Definition follows {A} (p' p : cprog A) : Prop := exists d d', cstep (d, p) (d', p').
Lemma follows_ends {A} (p : cprog A) : Acc follows p.
Proof. induction p as [x|k f IH|k o p IH|k f IH|k p IH|pat f IH]; constructor; intros p' (d & d' & H); inversion H; subst; auto. Qed.
Definition lfollows {A} (ps' ps : list (cprog A)) : Prop := exists d d', sys_step (d, ps) (d', ps').
Lemma lfollows_ends {A} (ps : list (cprog A)) : Acc lfollows ps.
Proof.
  induction ps as [|p ps IH].
  - constructor. intros ps' (d & d' & H). inversion H; subst. destruct n; discriminate.
  - revert p. assert (X : forall p : cprog A, Acc follows p -> forall ps : list (cprog A), Acc lfollows ps -> Acc lfollows (p :: ps)); [|intros p; apply X; [apply follows_ends|exact IH]].
    intros p AP. induction AP as [p HP IHP]. intros qs AQ. induction AQ as [qs HQ IHQ]. constructor. intros ps' (d & d' & H). inversion H as [d0 d0' ps0 n q q' N ST]; subst. destruct n as [|n]; cbn [nth_error list_set] in *.
    + injection N as <-. apply IHP; [now exists d, d'|]. now constructor.
    + apply IHQ. exists d, d'. now constructor 1 with q.
Qed.
Lemma sys_ends {A} (s : dict obj * list (cprog A)) : Acc (fun s' s => sys_step s s') s.
Proof.
  destruct s as [d ps]. revert d. induction (lfollows_ends ps) as [ps _ IH]. intros d. constructor. intros [d' ps'] H. apply IH. now exists d, d'.
Qed.
Lemma sys_moves {A} d (ps : list (cprog A)) : (exists xs, all_done ps xs) \/ exists s, sys_step (d, ps) s.
Proof.
  induction ps as [|p ps IH]; [left; now exists []|]. destruct IH as [(xs & ->)|([d' ps'] & H)].
  - destruct p as [x|k f|k o p|k f|k p|pat f]; [left; now exists (x :: xs)| | | | |]; right; eexists; (eapply one_moves with (n := 0); [reflexivity|constructor]).
  - right. inversion H as [d0 d0' ps0 n q q' N ST]; subst. eexists. apply (one_moves d d' (p :: ps) (S n) q q'); assumption.
Qed.

(** ** A schedule, for examples *)
Definition turn {A} (d : dict obj) (p : cprog A) : option (dict obj * cprog A) :=
  match p with
  | Done _ => None
  | CGet k f => Some (d, f (dget d k))
  | CSet k o p => Some (dset d k o, p)
  | CExists k f => Some (d, f (match dget d k with Some _ => true | None => false end))
  | CDelete k p => Some (ddel d k, p)
  | CScan pat f => Some (d, f (filter (glob pat) (dkeys d)))
  end.
Fixpoint schedule {A} (l : list nat) (s : dict obj * list (cprog A)) : dict obj * list (cprog A) :=
  match l with
  | [] => s
  | n :: l' => match nth_error (snd s) n with
               | Some p => match turn (fst s) p with Some (d', p') => schedule l' (d', list_set (snd s) n p') | None => schedule l' s end
               | None => schedule l' s
               end
  end.
Lemma schedule_runs {A} l : forall (s : dict obj * list (cprog A)), many sys_step s (schedule l s).
Proof.
  induction l as [|n l IH]; intros [d ps]; cbn [schedule fst snd]; [apply many_none|]. destruct (nth_error ps n) as [p|] eqn:N; [|apply IH]. destruct (turn d p) as [[d' p']|] eqn:T; [|apply IH].
  eapply many_more; [|apply IH]. apply one_moves with p; [exact N|]. destruct p; inversion T; constructor.
Qed.

(** ** Concurrent additions *)
Section Adds.
  Context (d0 : dict obj) (adders : list (string * obj * world)).
  Definition adder (x : string * obj * world) (p : cprog (world * list (result reply))) : Prop :=
    let '(k, o, w) := x in
    exists f, p = CGet k f /\ (forall e, f (Some e) = Done (w, [if dump_eq e o then Ok RUnit else Err ObjectAlreadyExists])) /\
      f None = CSet k (set_o_adapter o None) (Done (w, [Ok RUnit])).
  Hypothesis same : forall n m k o w o' w', n <> m -> nth_error adders n = Some (k, o, w) -> nth_error adders m = Some (k, o', w') -> dump_eq o o' = true.
  Hypothesis old : forall n k o w x, nth_error adders n = Some (k, o, w) -> dget d0 k = Some x -> dump_eq x o = true.
  Definition state_of (d : dict obj) (x : string * obj * world) (p : cprog (world * list (result reply))) : Prop :=
    let '(k, o, w) := x in
    adder x p \/ (p = CSet k (set_o_adapter o None) (Done (w, [Ok RUnit])) /\ dget d0 k = None) \/ (p = Done (w, [Ok RUnit]) /\ dget d k <> None).
  Definition inv (s : dict obj * list (cprog (world * list (result reply)))) : Prop :=
    length (snd s) = length adders /\
    (forall n x p, nth_error adders n = Some x -> nth_error (snd s) n = Some p -> state_of (fst s) x p) /\
    (forall k, dget (fst s) k = dget d0 k \/ (dget d0 k = None /\ exists n o w, nth_error adders n = Some (k, o, w) /\ dget (fst s) k = Some (set_o_adapter o None) /\
                                                nth_error (snd s) n = Some (Done (w, [Ok RUnit])))).
  Lemma inv_step s s' : inv s -> sys_step s s' -> inv s'.
  Proof.
    intros (L & ST & D) H. destruct H as [d d' ps n p p' N H]. cbn [fst snd] in *.
    assert (X : exists x, nth_error adders n = Some x). { destruct (nth_error adders n) as [x|] eqn:E; [eauto|]. apply nth_error_None in E. assert (Y : nth_error ps n <> None) by congruence. apply nth_error_Some in Y. lia. }
    destruct X as ([[k o] w] & NA). pose proof (ST n _ p NA N) as S0. cbn [state_of] in S0. destruct S0 as [(f & -> & FS & FN)|[(-> & NO)|(-> & _)]]; [| |inversion H].
    - inversion H as [d1 k1 f1 E1 E2| | | |]; subst. split; [cbn [snd]; now rewrite list_set_length|]. split; cbn [fst snd].
      + intros m x p NX NP. destruct (Nat.eq_dec m n) as [->|NE]; [|rewrite nth_list_set_neq in NP by exact NE; exact (ST m x p NX NP)].
        rewrite (nth_list_set_eq ps n _ _ N) in NP. injection NP as <-. rewrite NA in NX. injection NX as <-. cbn [state_of]. destruct (dget d' k) as [e|] eqn:G; rewrite ?FS, ?FN.
        * right; right. split; [|congruence]. destruct (D k) as [E|(_ & m & o' & w' & NM & E & DM)].
          -- rewrite G in E. symmetry in E. now rewrite (old n k o w e NA E).
          -- rewrite G in E. injection E as ->. rewrite dump_eq_adapter. assert (NE : m <> n) by (intros ->; rewrite N in DM; discriminate DM). now rewrite (same m n k o' w' o w NE NM NA).
        * right; left. split; [reflexivity|]. destruct (D k) as [E|(E & _)]; congruence.
      + intros k'. destruct (D k') as [E|(E & m & o' & w' & NM & E' & DM)]; [now left|right]. split; [exact E|]. exists m, o', w'. split; [exact NM|]. split; [exact E'|].
        rewrite nth_list_set_neq; [exact DM|]. intros ->. rewrite N in DM. discriminate DM.
    - inversion H as [|d1 k1 o1 p1 E1 E2| | |]; subst. split; [cbn [snd]; now rewrite list_set_length|]. split; cbn [fst snd].
      + intros m [[k' o'] w'] p NX NP. assert (G : forall k', dget d k' <> None -> dget (dset d k (set_o_adapter o None)) k' <> None).
        { intros k1 G. rewrite dget_dset. destruct (String.eqb k1 k); [discriminate|exact G]. }
        destruct (Nat.eq_dec m n) as [->|NE].
        * rewrite (nth_list_set_eq ps n _ _ N) in NP. injection NP as <-. rewrite NA in NX. injection NX as <- <- <-. right; right. split; [reflexivity|]. rewrite dget_dset, String.eqb_refl. discriminate.
        * rewrite nth_list_set_neq in NP by exact NE. destruct (ST m _ p NX NP) as [E|[E|(E & G')]]; [now left|right; now left|right; right]. split; [exact E|now apply G].
      + intros k'. rewrite dget_dset. destruct (String.eqb_spec k' k) as [->|NK].
        * right. split; [exact NO|]. exists n, o, w. split; [exact NA|]. split; [reflexivity|]. now rewrite (nth_list_set_eq ps n _ _ N).
        * destruct (D k') as [E|(E & m & o' & w' & NM & E' & DM)]; [now left|right]. split; [exact E|]. exists m, o', w'. split; [exact NM|]. split; [exact E'|].
          rewrite nth_list_set_neq; [exact DM|]. intros ->. rewrite N in DM. discriminate DM.
  Qed.
  Lemma inv_runs s s' : many sys_step s s' -> inv s -> inv s'.
  Proof. induction 1 as [|s s1 s2 H _ IH]; intros I; [exact I|]. apply IH. now apply (inv_step s). Qed.
  Lemma adds_all ps d' xs : Forall2 adder adders ps -> many sys_step (d0, ps) (d', map Done xs) ->
    xs = map (fun x => (snd x, [Ok RUnit])) adders /\
    forall k, match dget d0 k with
              | Some x => dget d' k = Some x
              | None => (exists n o w, nth_error adders n = Some (k, o, w) /\ dget d' k = Some (set_o_adapter o None)) \/
                        (dget d' k = None /\ forall o w, ~ In (k, o, w) adders)
              end.
  Proof.
    intros F R. apply inv_runs in R as (L & ST & D).
    - cbn [fst snd] in *. rewrite map_length in L. assert (E : xs = map (fun x => (snd x, [Ok RUnit])) adders).
      { clear D. revert xs L ST. assert (Z : forall (xs : list (world * list (result reply))) (l : list (string * obj * world)), length xs = length l ->
          (forall n x p, nth_error l n = Some x -> nth_error (map Done xs) n = Some p -> state_of d' x p) -> xs = map (fun x => (snd x, [Ok RUnit])) l); [|intros; now apply Z].
        induction xs as [|x xs IH]; intros [|[[k o] w] l] L ST; try discriminate; [reflexivity|]. cbn [map snd]. f_equal.
        - destruct (ST 0 (k, o, w) (Done x) eq_refl eq_refl) as [(f & E & _)|[(E & _)|(E & _)]]; [discriminate|discriminate|congruence].
        - apply IH; [now injection L|]. intros n y p NY NP. exact (ST (S n) y p NY NP). }
      split; [exact E|]. intros k. destruct (D k) as [G|(G & n & o & w & NA & G' & _)].
      + destruct (dget d0 k) as [x|] eqn:GD; [exact G|]. right. split; [exact G|]. intros o w I. apply In_nth_error in I as (n & I). subst xs.
        destruct (ST n (k, o, w) (Done (w, [Ok RUnit])) I) as [(f & E & _)|[(E & _)|(_ & E)]]; [now rewrite !nth_error_map, I|discriminate|discriminate|congruence].
      + rewrite G. left. exists n, o, w. split; assumption.
    - split; [clear - F; cbn [snd]; induction F as [|? ? ? ? ? ? IH]; [reflexivity|cbn; now rewrite IH]|]. split; cbn [fst snd]; [|intros k; now left]. intros n [[k o] w] p NX NP. left. clear - F NX NP. revert n NX NP.
      induction F as [|x q l qs H F IH]; intros [|n] NX NP; try discriminate; [cbn in NX, NP; injection NX as ->; injection NP as ->; exact H|exact (IH n NX NP)].
  Qed.
End Adds.
Lemma started_adds p k o : adds_one p k o -> adder (k, o, pr_world p) (started p).
Proof.
  intros (a & r & ad & i & u & C & NA & S & NO & U & ->). unfold started. rewrite C. cbn [issued_all issued]. unfold cfmap, c_add, cbind, here, hget, get_adapter, lift. rewrite NO. cbn [cthen fst snd]. rewrite U. cbn [cthen fst snd]. rewrite NA. cbn [cthen fst snd]. rewrite S.
  unfold cget. cbn [cthen fst snd adder]. eexists. split; [reflexivity|]. split; [|reflexivity]. intros e. cbn [cthen fst snd]. destruct (dump_eq e o); reflexivity.
Qed.
Lemma concurrent_adds ps d d' xs : Forall (fun p => exists k o, adds_one p k o) ps ->
  (forall n m p q k o o', n <> m -> nth_error ps n = Some p -> nth_error ps m = Some q -> adds_one p k o -> adds_one q k o' -> dump_eq o o' = true) ->
  (forall p k o x, In p ps -> adds_one p k o -> dget d k = Some x -> dump_eq x o = true) ->
  many sys_step (d, map started ps) (d', map Done xs) ->
  xs = map (fun p => (pr_world p, [Ok RUnit])) ps /\
  forall k, match dget d k with
            | Some x => dget d' k = Some x
            | None => (exists p o, In p ps /\ adds_one p k o /\ dget d' k = Some (set_o_adapter o None)) \/
                      (dget d' k = None /\ forall p o, In p ps -> ~ adds_one p k o)
            end.
Proof.
  intros F SM OLD R.
  assert (X : exists adders, Forall2 (fun p x => snd x = pr_world p /\ adds_one p (fst (fst x)) (snd (fst x))) ps adders).
  { clear - F. induction F as [|p ps (k & o & A) F (l & IH)]; [now exists []|]. exists ((k, o, pr_world p) :: l). constructor; [now split|exact IH]. }
  destruct X as (adders & X).
  assert (NTH : forall n x, nth_error adders n = Some x -> exists p, nth_error ps n = Some p /\ snd x = pr_world p /\ adds_one p (fst (fst x)) (snd (fst x))).
  { clear - X. induction X as [|p x ps l H X IH]; intros [|n] y N; try discriminate; [cbn in N; injection N as <-; exists p; now split|]. exact (IH n y N). }
  destruct (adds_all d adders) with (ps := map started ps) (d' := d') (xs := xs) as (E & K).
  - intros n m k o w o' w' NE N M. apply NTH in N as (p & N & _ & A). apply NTH in M as (q & M & _ & B). exact (SM n m p q k o o' NE N M A B).
  - intros n k o w x N G. apply NTH in N as (p & N & _ & A). apply (OLD p k o x); [now apply nth_error_In in N|exact A|exact G].
  - clear - X. induction X as [|p [[k o] w] ps l (W & A) X IH]; cbn [map]; [constructor|]. constructor; [|exact IH]. cbn [fst snd] in *. subst w. now apply started_adds.
  - exact R.
  - split.
    + rewrite E. clear - X. induction X as [|p [[k o] w] ps l (W & A) X IH]; [reflexivity|]. cbn [map snd] in *. now rewrite IH, W.
    + intros k. specialize (K k). destruct (dget d k) as [x|]; [exact K|]. destruct K as [(n & o & w & N & G)|(G & N)].
      * left. apply NTH in N as (p & N & _ & A). exists p, o. split; [now apply nth_error_In in N|]. now split.
      * right. split; [exact G|]. intros p o I A. apply In_nth_error in I as (n & I).
        assert (Y : exists x, nth_error adders n = Some x) by (clear - X I; revert n I; induction X as [|p0 x ps l H X IH]; intros [|n] I; try discriminate; [eexists; reflexivity|exact (IH n I)]).
        destruct Y as ([[k' o'] w'] & Y). pose proof (nth_error_In _ _ Y) as YI. apply NTH in Y as (q & Q & _ & B). rewrite I in Q. injection Q as <-. cbn [fst snd] in B.
        assert (k' = k /\ o' = o) as (-> & ->); [|now apply (N o w')].
        destruct A as (a & r & ad & i & u & C & NA & ST & NO & U & ->), B as (a' & r' & ad' & i' & u' & C' & NA' & ST' & NO' & U' & ->). rewrite C in C'. injection C' as <- <-. rewrite NA in NA'. injection NA' as <-. rewrite ST in ST'. injection ST' as <-.
        rewrite NO in NO'. injection NO' as <-. rewrite U in U'. injection U' as <-. now split.
Qed.
