(** * GossipFacts: adapters that only grow. *)
From Verif Require Export GossipSpec EditEnd.

(** ** What is known *)
Lemma cons_snoc A (l0 : list A) e m l ch : l0 ++ e :: m = l ++ [ch] -> (m = [] /\ l0 = l /\ e = ch) \/ exists m', m = m' ++ [ch] /\ l = l0 ++ e :: m'.
Proof.
  intros E. destruct m as [|z m0]; [left; apply app_inj_tail in E as (-> & ->); auto|]. right.
  destruct (exists_last (l := z :: m0)) as (m' & y & Q); [discriminate|]. rewrite Q in *. exists m'. change (l0 ++ e :: m' ++ [y]) with (l0 ++ (e :: m') ++ [y]) in E. rewrite app_assoc in E. apply app_inj_tail in E as (<- & <-). auto.
Qed.
Lemma knows_snoc l ch a x : knows (l ++ [ch]) a x <-> knows l a x \/ match ch with Insert b y => a = b /\ x = y | Sync c => a = sy_dst c /\ knows l (sy_src c) x | _ => False end.
Proof.
  split.
  - intros K. remember (l ++ [ch]) as q eqn:E. destruct K as [l0 m a x|l0 m c x K]; apply cons_snoc in E as [(-> & -> & <-)|(m' & -> & ->)]; auto; left; [apply knows_added|now apply knows_told].
  - intros [K|K].
    + destruct K as [l0 m a x|l0 m c x K]; rewrite <- app_assoc; cbn [app]; [apply knows_added|now apply knows_told].
    + destruct ch as [b y|? ? ? ?|? ? ?|c]; try (now destruct K); [destruct K as (-> & ->); apply knows_added|destruct K as (-> & K); now apply knows_told].
Qed.
Lemma knows_app l m a x : knows l a x -> knows (l ++ m) a x.
Proof. intros [l0 m0 b y|l0 m0 c y K]; rewrite <- app_assoc; cbn [app]; [apply knows_added|now apply knows_told]. Qed.

Lemma after_knows cs l : Forall grows l -> forall a,
  (forall x, In x (rows_after cs l a) -> knows l a x) /\ forall x, knows l a x -> exists y, In y (rows_after cs l a) /\ row_key cs y = row_key cs x.
Proof.
  induction l as [|ch l IH] using rev_ind; intros F a.
  - split; [intros x []|]. intros x K. exfalso. remember [] as q eqn:E. destruct K as [l0 m a x|l0 m c x K]; now destruct l0.
  - apply Forall_app in F as (F & G). inversion G as [|? ? GR _]; subst. specialize (IH F). unfold rows_after in *. rewrite fold_left_app. cbn [fold_left]. set (D := fold_left (change_rows cs) l (fun _ => [])) in *.
    destruct ch as [b y|? ? ? ?|? ? ?|c]; try (now destruct GR); cbn [change_rows].
    + unfold put. destruct (Nat.eqb_spec a b) as [->|NE].
      * split.
        -- intros x I. apply knows_snoc. apply in_app_iff in I as [I|[<-|[]]]; [left; now apply IH|auto].
        -- intros x K. apply knows_snoc in K as [K|(_ & ->)]; [|exists y; split; [apply in_app_iff; right; now left|reflexivity]]. destruct (proj2 (IH b) x K) as (z & I & E). exists z. split; [apply in_app_iff; auto|exact E].
      * split; [intros x I; apply knows_snoc; left; now apply IH|]. intros x K. apply knows_snoc in K as [K|(E & _)]; [now apply IH|contradiction].
    + destruct GR as (B1 & B2). unfold pool_call. destruct (Nat.eqb_spec a (sy_dst c)) as [->|NE].
      * split.
        -- intros x I. apply knows_snoc. apply pool_cases in I as [(I & _)|(I & _)]; [right; split; [reflexivity|]|left]; now apply IH.
        -- intros x K. apply knows_snoc in K as [K|(_ & K)]; destruct (proj2 (IH _) x K) as (z & I & E).
           ++ destruct (has_row cs (D (sy_src c)) z) eqn:H; [apply has_row_ok in H as (y & Iy & Ey); exists y; split; [|congruence]|exists z; split; [|exact E]]; apply pool_cases; auto.
           ++ exists z. split; [|exact E]. apply pool_cases. auto.
      * split; [intros x I; apply knows_snoc; left; now apply IH|]. intros x K. apply knows_snoc in K as [K|(E & _)]; [now apply IH|contradiction].
Qed.

(** ** Adapters carry any list of records that says the same *)
Section Alike.
  Variables (cs : dict cls) (U : list row).
  Notation K := (row_key cs).
  Hypothesis MA : matching cs cs U U.
  Hypothesis AG : agreeing cs U.
  Variables (R R' : list row).
  Hypothesis I : incl R U.
  Hypothesis I' : incl R' U.
  Hypothesis E1 : forall x, In x R -> exists y, In y R' /\ K y = K x.
  Hypothesis E2 : forall x, In x R' -> exists y, In y R /\ K y = K x.
  Lemma key_type x y : K x = K y -> r_type x = r_type y.
  Proof. intros E. apply (f_equal fst) in E. exact E. Qed.
  Lemma kids_sub S S' : incl S U -> incl S' U -> (forall x, In x S -> exists y, In y S' /\ K y = K x) -> forall k t u, In u (row_kids cs S k t) -> In u (row_kids cs S' k t).
  Proof.
    intros IS IS' E k t u H. unfold row_kids in *. apply in_map_iff in H as (x & <- & H). apply filter_In in H as (H & B). destruct (E x H) as (y & J & Q). apply in_map_iff. exists y. split; [congruence|]. apply filter_In. split; [exact J|].
    unfold is_parent in *. now rewrite (ma_place _ _ _ _ MA y x (IS' y J) (IS x H) Q), (key_type y x Q).
  Qed.
  Lemma like_alike x y o : In x R -> In y R' -> K y = K x -> like_row cs R x o -> like_row cs R' y o.
  Proof.
    intros Ix Iy E (c & D & T & SS & F0 & ND & VI & VA & MK). pose proof (key_type y x E) as ET. exists c. rewrite ET. split; [exact D|]. split; [exact T|]. split; [exact SS|]. split; [exact F0|]. split; [exact ND|]. split; [|split].
    - intros f If. rewrite (VI f If). symmetry. apply (ma_same _ _ _ _ MA y x c c f (I' y Iy) (I x Ix) E); [congruence|exact D|exact If].
    - intros f If. destruct (VA f If) as (v & v1 & A & B & Q). destruct (AG y x c f (I' y Iy) (I x Ix) E) as (u & u' & A' & B' & Q'); [congruence|exact If|]. rewrite A in B'. injection B' as <-. exists u, v1. split; [exact A'|]. split; [exact B|]. exact (py_eq_trans _ _ _ Q' Q).
    - intros t f If. destruct (MK t f If) as (l & G & NDl & EL). exists l. split; [exact G|]. split; [exact NDl|]. intros u. rewrite E, EL. split; apply kids_sub; auto.
  Qed.
  Lemma carries_alike w a : carries w a cs R -> carries w a cs R'.
  Proof.
    intros [L H O]. split; [exact L| |].
    - intros y Iy. destruct (E2 y Iy) as (x & Ix & E). destruct (H x Ix) as (r & o & A & B & M). rewrite <- E. exists r, o. split; [exact A|]. split; [exact B|]. exact (like_alike x y o Ix Iy (eq_sym E) M).
    - intros k N. destruct (O k N) as (x & Ix & <-). destruct (E1 x Ix) as (y & Iy & E). eauto.
  Qed.
End Alike.

Lemma kids_nodup cs R k t : NoDup (map (row_key cs) R) -> NoDup (row_kids cs R k t).
Proof.
  intros ND. unfold row_kids. induction R as [|x l IH]; [constructor|]. inversion ND as [|? ? NI ND']. subst. specialize (IH ND'). cbn [filter].
  destruct (is_parent k x && String.eqb (r_type x) t) eqn:B; [|exact IH]. cbn [map]. constructor; [|exact IH]. intros I. apply in_map_iff in I as (y & E & I). apply filter_In in I as (I & B').
  apply andb_true_iff in B as (_ & B). apply andb_true_iff in B' as (_ & B'). apply String.eqb_eq in B, B'. apply NI. apply in_map_iff. exists y. split; [|exact I].
  apply injective_projections; [cbn [row_key fst]; congruence|exact E].
Qed.
Lemma carries_has w a cs R : NoDup (map (row_key cs) R) -> proper_values cs R -> carries w a cs R -> has_data w a cs R.
Proof.
  intros KN PV CA. split; [|exact (ca_only _ _ _ _ CA)]. intros x c I D. destruct (ca_rows _ _ _ _ CA x I) as (r & o & L & H & M). exists r, o. split; [exact L|]. split; [exact H|].
  destruct M as (c' & D' & T & _ & _ & _ & VI & VA & MK). rewrite D in D'. injection D' as <-. split; [exact T|]. split.
  - intros f If. destruct (PV x c f I D If) as (v & E & Q). apply in_app_iff in If as [If|If]; [|exact (VA f If)]. exists v, v. rewrite (VI f If), E. auto.
  - intros t f If. destruct (MK t f If) as (l & G & ND & EL). exists l. split; [exact G|]. apply NoDup_Permutation; [exact ND|now apply kids_nodup|exact EL].
Qed.

(** as [carries_copy], between two worlds *)
Lemma carries_twin w a w' b cs tops rows : dataset cs tops rows -> proper_values cs rows -> carries w a cs rows -> carries w' b cs rows -> holds_copy w a w' b.
Proof.
  intros DS PV CA CB. split.
  - intros s k R IK. destruct (ca_read w a cs rows CA s R) as (x & I & M). pose proof (ca_key cs rows tops DS s x k I M IK) as <-.
    destruct (ca_object w' b cs rows tops CB DS x I) as (o & R' & M'). exists o. split; [exact R'|]. split; [exact (ca_is cs rows tops DS x o I M')|].
    destruct M as (c & D & T & (SI & SS & SF & SC) & _ & N & VI & VA & MK). destruct M' as (c' & D' & T' & (SI' & SS' & SF' & SC') & _ & N' & VI' & VA' & MK'). rewrite D in D'. injection D' as <-.
    split; [congruence|]. split; [repeat split; congruence|]. split; [|split].
    + apply ids_agree; auto; [congruence| |]; rewrite SI; intros f If; [now rewrite VI, VI'|]. rewrite (VI f If). apply (PV x c f I D). apply in_app_iff. now left.
    + intros f If. rewrite SF in If. destruct (VA f If) as (v & v1 & E & E1 & Q). destruct (VA' f If) as (v' & v2 & E' & E2 & Q'). rewrite E in E'. injection E' as <-. exists v1, v2.
      split; [exact E1|]. split; [exact E2|]. rewrite py_eq_sym in Q. exact (py_eq_trans _ _ _ Q Q').
    + intros t f l If G. rewrite SC in If. destruct (MK t f If) as (l1 & G1 & _ & EL). destruct (MK' t f If) as (l2 & G2 & ND & EL'). assert (l1 = l) by congruence. subst l1.
      exists l2. split; [exact G2|]. split; [exact ND|]. intros u. now rewrite EL, EL'.
  - intros o k R IK. destruct (ca_read w' b cs rows CB o R) as (x & I & M). pose proof (ca_key cs rows tops DS o x k I M IK) as <-.
    destruct (ca_object w a cs rows tops CA DS x I) as (s & R' & M'). exists s. split; [exact R'|]. exact (ca_is cs rows tops DS x s I M').
Qed.

(** ** Histories *)
Lemma can_knows cs U ads l : forall D, can_do_all cs U ads D l -> forall a x, knows l a x -> In x U.
Proof.
  intros D CD a x K. assert (INS : forall b y, In (Insert b y) l -> In y U).
  { clear K. revert D CD. induction l as [|ch l IH]; [intros D CD b y []|]. intros D CD b y [->|I]; destruct CD as (C1 & C2); [apply C1|exact (IH _ C2 b y I)]. }
  clear CD. induction K as [l m a x|l m c x K IH]; [apply (INS a), in_app_iff; right; now left|]. apply IH. intros b y I. apply (INS b). apply in_app_iff. now left.
Qed.
Section Histories.
  Variables (fuel : nat) (cs : dict cls) (tops : list string) (U : list row).
  Hypothesis RL : realm fuel cs tops U.
  Hypothesis F2 : 2 <= fuel.
  Hypothesis AG : agreeing cs U.
  Lemma grown w l : w_ok w -> (forall ad, In ad (w_ads w) -> ad_store ad = SLocal [] /\ ad_classes ad = cs /\ ad_top ad = tops) -> can_do_all cs U (w_ads w) (fun _ => []) l -> Forall grows l ->
    exists w', do_changes fuel l w = (w', Ok tt) /\ forall a, a < length (w_ads w) -> carries w' a cs (rows_after cs l a) /\ dataset cs tops (rows_after cs l a) /\
      incl (rows_after cs l a) U /\ sums cs l a (rows_after cs l a).
  Proof.
    intros OK ES CD GR. assert (AC : forall a ad, nth_error (w_ads w) a = Some ad -> ad_classes ad = cs /\ ad_top ad = tops) by (intros a ad A; apply ES; now apply nth_error_In in A).
    pose proof (empty_poised cs tops U (w_ads w) w OK eq_refl (fun ad I => proj1 (ES ad I))) as P0.
    destruct (changes_poised fuel cs tops U (w_ads w) RL F2 AC l _ w P0 CD) as (w' & E & P). exists w'. split; [exact E|]. intros a LA. destruct (after_knows cs l GR a) as (A1 & A2).
    split; [exact (pd_data _ _ _ _ _ _ P a LA)|]. split; [exact (pd_set _ _ _ _ _ _ P a LA)|]. split; [intros x I; exact (can_knows cs U _ l _ CD a x (A1 x I))|]. split; [exact (da_keys _ _ _ (pd_set _ _ _ _ _ _ P a LA))|exact A1|exact A2].
  Qed.
End Histories.
