From Coq Require Import List ZArith QArith Qcanon Permutation Lia Bool Lqa.
From Verif Require Import Base BaseFacts ModelVec ModelAabb SpecAabb ProofAabb ModelBvh SpecBvh.
Import ListNotations.
Open Scope Qc_scope.

(** ** Invariant of built trees *)

Definition fin (os : list obj) : Prop := forall o, In o os -> finite_box (obox o).
Definition prop (os : list obj) : Prop := forall o, In o os -> proper (obox o).

Inductive wf : aabb -> list obj -> bvh -> Prop :=
| wf_leaf o : wf (obox o) [o] (BNode (obox o) (Some o) BNull BNull)
| wf_node bb b1 b2 os1 os2 l r :
    wf b1 os1 l -> wf b2 os2 r -> encl b1 bb -> encl b2 bb ->
    (fin (os1 ++ os2) -> bb = aabb_merge b1 b2) ->
    wf bb (os1 ++ os2) (BNode bb None l r).

Lemma fin_app a b : fin (a ++ b) <-> fin a /\ fin b.
Proof.
  unfold fin. split.
  - intros H. split; intros o Ho; apply H, in_or_app; auto.
  - intros [H1 H2] o Ho. apply in_app_or in Ho. destruct Ho; auto.
Qed.
Lemma prop_app a b : prop (a ++ b) <-> prop a /\ prop b.
Proof.
  unfold prop. split.
  - intros H. split; intros o Ho; apply H, in_or_app; auto.
  - intros [H1 H2] o Ho. apply in_app_or in Ho. destruct Ho; auto.
Qed.
Lemma fin_perm a b : Permutation a b -> fin a -> fin b.
Proof. intros P H o Ho. apply H. eapply Permutation_in; [symmetry; exact P | exact Ho]. Qed.
Lemma prop_perm a b : Permutation a b -> prop a -> prop b.
Proof. intros P H o Ho. apply H. eapply Permutation_in; [symmetry; exact P | exact Ho]. Qed.

Lemma finite_merge a b : finite_box a -> finite_box b -> finite_box (aabb_merge a b).
Proof.
  intros [H1 H2] [H3 H4]. split; intros ax; rewrite ?merge_min, ?merge_max.
  - destruct (Qcmin_cases (coord (bmin a) ax) (coord (bmin b) ax)) as [-> | ->]; auto.
  - destruct (Qcmax_cases (coord (bmax a) ax) (coord (bmax b) ax)) as [-> | ->]; auto.
Qed.

Lemma wf_finite bb os t : wf bb os t -> fin os -> finite_box bb.
Proof.
  induction 1 as [o|bb b1 b2 os1 os2 l r H1 IH1 H2 IH2 E1 E2 EM]; intros F.
  - apply F. left. reflexivity.
  - rewrite (EM F). apply fin_app in F. destruct F. apply finite_merge; auto.
Qed.

Lemma wf_nonnull bb os t : wf bb os t -> is_null t = false.
Proof. destruct 1; reflexivity. Qed.

Lemma wf_objects bb os t : wf bb os t -> objects_of t = os.
Proof. induction 1; cbn; [reflexivity|]. congruence. Qed.

Lemma wf_encl bb os t : wf bb os t -> forall o, In o os -> encl (obox o) bb.
Proof.
  induction 1 as [o|bb b1 b2 os1 os2 l r H1 IH1 H2 IH2 E1 E2 EM]; intros x Hx.
  - destruct Hx as [<-|[]]. apply encl_refl.
  - apply in_app_or in Hx. destruct Hx as [Hx|Hx].
    + eapply encl_trans; [apply IH1; assumption | assumption].
    + eapply encl_trans; [apply IH2; assumption | assumption].
Qed.

Lemma wf_least bb os t : wf bb os t -> fin os ->
  forall c, (forall o, In o os -> encl (obox o) c) -> encl bb c.
Proof.
  induction 1 as [o|bb b1 b2 os1 os2 l r H1 IH1 H2 IH2 E1 E2 EM]; intros F c Hc.
  - apply Hc. left. reflexivity.
  - rewrite (EM F). apply fin_app in F. destruct F.
    apply encl_merge_lub; [apply IH1 | apply IH2]; auto; intros o Ho; apply Hc, in_or_app; auto.
Qed.

Lemma wf_node_in bb os t : wf bb os t -> forall bb' o l r, node_in t bb' o l r ->
  wf bb' (objects_of (BNode bb' o l r)) (BNode bb' o l r) /\
  (forall x, In x (objects_of (BNode bb' o l r)) -> In x os).
Proof.
  induction 1 as [o|bb b1 b2 os1 os2 l r H1 IH1 H2 IH2 E1 E2 EM]; intros bb' o' l' r' HN.
  - inversion HN; subst; [|match goal with H : node_in BNull _ _ _ _ |- _ => inversion H end..].
    cbn. split; [constructor | auto].
  - inversion HN; subst.
    + assert (W : wf bb' (os1 ++ os2) (BNode bb' None l' r')) by (econstructor; eassumption).
      rewrite (wf_objects _ _ _ W). auto.
    + destruct (IH1 _ _ _ _ H9) as [A B]. split; [assumption|]. intros x Hx. apply in_or_app. auto.
    + destruct (IH2 _ _ _ _ H9) as [A B]. split; [assumption|]. intros x Hx. apply in_or_app. auto.
Qed.

(** ** Top-down construction *)

Lemma div2_pos n : (2 <= n -> 0 < Nat.div2 n /\ Nat.div2 n < n)%nat.
Proof.
  intros H. split.
  - destruct n as [|[|n]]; [lia|lia|]. cbn. lia.
  - apply Nat.lt_div2. lia.
Qed.

Lemma split_half_spec os a b : (2 <= length os)%nat -> split_half os = (a, b) ->
  Permutation os (a ++ b) /\ a <> [] /\ b <> [].
Proof.
  intros HL [= <- <-]. destruct (div2_pos _ HL) as [H1 H2].
  split; [rewrite firstn_skipn; reflexivity|]. split; intros E; apply (f_equal (@length _)) in E.
  - rewrite firstn_length in E. cbn in E. lia.
  - rewrite skipn_length in E. cbn in E. lia.
Qed.

Lemma is_nil_false {A} (l : list A) : is_nil l = false -> l <> [].
Proof. destruct l; [discriminate | congruence]. Qed.

Lemma split_axes_spec part : partition_spec part ->
  forall tb ext axes os a b, (2 <= length os)%nat -> split_axes part tb ext axes os = (a, b) ->
  Permutation os (a ++ b) /\ a <> [] /\ b <> [].
Proof.
  intros HP tb ext. induction axes as [|ax axes IH]; intros os a b HL E; cbn [split_axes] in E.
  - eapply split_half_spec; eassumption.
  - destruct (0 <? coord ext ax); [|eapply IH; eassumption].
    destruct (part _ os) as [l r] eqn:Ep.
    destruct (HP _ _ _ _ Ep) as (P & _ & _).
    destruct (negb (is_nil l) && negb (is_nil r)) eqn:En.
    + injection E as <- <-. apply andb_true_iff in En. destruct En as [E1 E2].
      apply negb_true_iff in E1, E2. auto using is_nil_false.
    + apply IH in E; [|rewrite <- (Permutation_length P); assumption].
      destruct E as (P' & A & B). split; [rewrite P; assumption | auto].
Qed.

Lemma split_objects_spec part order : partition_spec part ->
  forall os a b, (2 <= length os)%nat -> split_objects part order os = (a, b) ->
  Permutation os (a ++ b) /\ a <> [] /\ b <> [].
Proof.
  intros HP os a b HL E. unfold split_objects in E.
  destruct (Nat.leb (length os) 1) eqn:EL; [apply Nat.leb_le in EL; lia|].
  destruct (_ && _); [eapply split_half_spec | eapply split_axes_spec]; eassumption.
Qed.

Lemma encl_default_l b1 b2 :
  encl b1 (aabb_merge (aabb_merge aabb_default b1) b2) /\ encl b2 (aabb_merge (aabb_merge aabb_default b1) b2).
Proof.
  split; [|apply encl_merge_r]. eapply encl_trans; [|apply encl_merge_l]. apply encl_merge_r.
Qed.

Lemma wf_box bb os t : wf bb os t -> exists o l r, t = BNode bb o l r.
Proof. destruct 1; eauto. Qed.

Lemma build_top_down_spec part order : partition_spec part ->
  forall fuel os, (length os <= S fuel)%nat -> os <> [] ->
  exists t bb os', build_bvh_top_down part order fuel os = Some t /\ wf bb os' t /\ Permutation os os'.
Proof.
  intros HP. induction fuel as [|fuel IH]; intros os HL HN.
  - destruct os as [|o [|o2 os]]; [congruence| |cbn in HL; lia].
    eexists _, _, _. split; [reflexivity|]. split; [constructor | reflexivity].
  - destruct os as [|o [|o2 os]]; [congruence| |].
    + eexists _, _, _. split; [reflexivity|]. split; [constructor | reflexivity].
    + cbn [build_bvh_top_down]. set (all := o :: o2 :: os) in *.
      destruct (split_objects part order all) as [lo ro] eqn:ES.
      destruct (split_objects_spec _ order HP all lo ro) as (P & NL & NR); [cbn; lia | assumption |].
      assert (L := Permutation_length P). rewrite app_length in L.
      assert (0 < length lo)%nat by (destruct lo; [congruence | cbn; lia]).
      assert (0 < length ro)%nat by (destruct ro; [congruence | cbn; lia]).
      destruct (Nat.eqb (length lo) (length all) || Nat.eqb (length ro) (length all)) eqn:EB.
      { apply orb_true_iff in EB. rewrite !Nat.eqb_eq in EB. lia. }
      destruct (IH lo) as (l & b1 & os1 & El & W1 & P1); [lia | assumption|].
      destruct (IH ro) as (r & b2 & os2 & Er & W2 & P2); [lia | assumption|].
      rewrite El, Er. eexists _, _, _. split; [reflexivity|]. split.
      * destruct (wf_box _ _ _ W1) as (? & ? & ? & X1). destruct (wf_box _ _ _ W2) as (? & ? & ? & X2).
        rewrite X1, X2 at 1. cbn [node_box].
        destruct (encl_default_l b1 b2) as [E1 E2].
        eapply wf_node; try eassumption. intros F. apply fin_app in F. destruct F as [F1 F2].
        rewrite merge_default; [reflexivity | eapply wf_finite; eassumption].
      * rewrite P, P1, P2. reflexivity.
Qed.

(** ** Bottom-up construction *)

Inductive leaves_ok : list leaf -> list obj -> Prop :=
| lo_nil : leaves_ok [] []
| lo_cons l os ls os' : wf (lbox l) os (lnode l) -> leaves_ok ls os' -> leaves_ok (l :: ls) (os ++ os').

Lemma leaves_ok_perm ls ls' : Permutation ls ls' -> forall os, leaves_ok ls os ->
  exists os', leaves_ok ls' os' /\ Permutation os os'.
Proof.
  induction 1 as [|x l l' HP IH|x y l|l1 l2 l3 H1 IH1 H2 IH2]; intros os H.
  - exists os. split; [assumption | reflexivity].
  - inversion H; subst. destruct (IH _ H4) as (os'' & A & B).
    eexists. split; [constructor; eassumption|]. apply Permutation_app_head. assumption.
  - inversion H; subst. inversion H4; subst.
    eexists. split; [constructor; [eassumption|]; constructor; eassumption|].
    rewrite !app_assoc. apply Permutation_app_tail. apply Permutation_app_comm.
  - destruct (IH1 _ H) as (os1 & A & B). destruct (IH2 _ A) as (os2 & C & D).
    exists os2. split; [assumption|]. rewrite B. assumption.
Qed.

Lemma pair_up_ok : forall n ls os, (length ls <= n)%nat -> leaves_ok ls os ->
  leaves_ok (pair_up ls) os /\ (length (pair_up ls) <= length ls)%nat /\
  (2 <= length ls -> length (pair_up ls) < length ls)%nat /\ (1 <= length ls -> 1 <= length (pair_up ls))%nat.
Proof.
  induction n as [|n IH]; intros ls os HL H.
  - destruct ls; [|cbn in HL; lia]. cbn. split; [assumption | lia].
  - destruct ls as [|a [|b ls]].
    + cbn. split; [assumption | lia].
    + cbn. split; [assumption | lia].
    + inversion H; subst. inversion H4; subst. cbn in HL.
      destruct (IH ls os'0) as (A & B & C & D); [lia | assumption|].
      cbn [pair_up length]. split; [|lia].
      rewrite app_assoc. constructor; [|assumption]. cbn.
      eapply wf_node; try eassumption; auto using encl_merge_l, encl_merge_r.
Qed.

Lemma merge_loop_spec sort : sort_spec sort ->
  forall fuel ls os, (1 <= length ls <= S fuel)%nat -> leaves_ok ls os ->
  exists t bb os', merge_loop sort fuel ls = Some t /\ wf bb os' t /\ Permutation os os'.
Proof.
  intros HS. induction fuel as [|fuel IH]; intros ls os HL H.
  - destruct ls as [|l [|l2 ls]]; cbn in HL; try lia.
    inversion H; subst. inversion H4; subst. rewrite app_nil_r in *. cbn.
    eexists _, _, _. split; [reflexivity|]. split; [eassumption | reflexivity].
  - destruct ls as [|l [|l2 ls]]; [cbn in HL; lia| |].
    + inversion H; subst. inversion H4; subst. rewrite app_nil_r in *. cbn.
      eexists _, _, _. split; [reflexivity|]. split; [eassumption | reflexivity].
    + cbn [merge_loop]. set (all := l :: l2 :: ls) in *.
      destruct (HS (find_best_axis all) all) as [P _].
      destruct (leaves_ok_perm _ _ P _ H) as (os1 & A & B).
      assert (L := Permutation_length P).
      destruct (pair_up_ok _ _ _ (le_n _) A) as (A' & L1 & L2 & L3).
      assert (2 <= length all)%nat by (cbn; lia).
      destruct (IH (pair_up (sort (find_best_axis all) all)) os1) as (t & bb & os' & E & W & P'); [lia | assumption |].
      eexists _, _, _. split; [exact E|]. split; [exact W|]. rewrite B. assumption.
Qed.

Lemma leaves_ok_objs os : leaves_ok (map leaf_of_obj os) os.
Proof.
  induction os as [|o os IH]; cbn; [constructor|].
  change (o :: os) with ([o] ++ os). constructor; [constructor | assumption].
Qed.

Lemma build_spec part order sort : partition_spec part -> sort_spec sort ->
  forall os bu, os <> [] ->
  exists t bb os', build_bvh part order sort os bu = Some t /\ wf bb os' t /\ Permutation os os'.
Proof.
  intros HP HS os bu HN. unfold build_bvh. destruct bu.
  - unfold build_bvh_bottom_up. destruct os as [|o os]; [congruence|].
    apply merge_loop_spec; [assumption | rewrite map_length; cbn; lia | apply leaves_ok_objs].
  - apply build_top_down_spec; [assumption | lia | assumption].
Qed.

Lemma build_nil part order sort bu : build_bvh part order sort [] bu = Some BNull.
Proof. destruct bu; reflexivity. Qed.

(** ** C27, C28 *)

Lemma wf_shape bb os t : wf bb os t -> forall bb' o l r, node_in t bb' o l r ->
  (o = None -> l <> BNull /\ r <> BNull) /\ (o <> None -> l = BNull /\ r = BNull).
Proof.
  intros W bb' o l r HN. destruct (wf_node_in _ _ _ W _ _ _ _ HN) as [W' _].
  inversion W'; subst.
  - split; [congruence | auto].
  - split; [|congruence]. intros _. split; intros ->.
    + match goal with H : wf _ _ BNull |- _ => inversion H end.
    + match goal with H : wf _ _ BNull |- _ => inversion H end.
Qed.

Lemma build_stores_once part order sort : partition_spec part -> axis_order_spec order -> sort_spec sort ->
  forall os bu, exists t,
    build_bvh part order sort os bu = Some t /\ Permutation os (objects_of t) /\
    (t = BNull <-> os = []) /\
    forall bb o l r, node_in t bb o l r ->
      (o = None -> l <> BNull /\ r <> BNull) /\ (o <> None -> l = BNull /\ r = BNull).
Proof.
  intros HP _ HS os bu. destruct os as [|o0 os0] eqn:EO.
  - exists BNull. rewrite build_nil. split; [reflexivity|]. split; [reflexivity|].
    split; [tauto|]. intros ? ? ? ? H. inversion H.
  - rewrite <- EO. destruct (build_spec part order sort HP HS os bu) as (t & bb & os' & E & W & P).
    { rewrite EO. congruence. }
    exists t. split; [assumption|]. split; [rewrite (wf_objects _ _ _ W); assumption|]. split.
    + split; intros X; [|subst; discriminate]. rewrite X in W. inversion W.
    + intros ? ? ? ? HN. eapply wf_shape; eassumption.
Qed.

Lemma build_boxes_tight part order sort : partition_spec part -> axis_order_spec order -> sort_spec sort ->
  forall os bu, Forall (fun o => proper (obox o) /\ finite_box (obox o)) os ->
  exists t, build_bvh part order sort os bu = Some t /\
  forall bb o l r, node_in t bb o l r ->
    (forall x, In x (objects_of (BNode bb o l r)) -> subbox (obox x) bb) /\
    forall c, (forall x, In x (objects_of (BNode bb o l r)) -> subbox (obox x) c) -> subbox bb c.
Proof.
  intros HP _ HS os bu HF. destruct os as [|o0 os0] eqn:EO.
  - exists BNull. rewrite build_nil. split; [reflexivity|]. intros ? ? ? ? H. inversion H.
  - rewrite <- EO in *. destruct (build_spec part order sort HP HS os bu) as (t & bb & os' & E & W & P).
    { rewrite EO. congruence. }
    exists t. split; [assumption|]. intros bb' o l r HN.
    destruct (wf_node_in _ _ _ W _ _ _ _ HN) as [W' Hin].
    rewrite Forall_forall in HF.
    assert (HF' : forall x, In x (objects_of (BNode bb' o l r)) -> proper (obox x) /\ finite_box (obox x)).
    { intros x Hx. apply HF. eapply Permutation_in; [symmetry; exact P|]. auto. }
    split.
    + intros x Hx. apply encl_sub. eapply wf_encl; eassumption.
    + intros c Hc. apply encl_sub. eapply wf_least; [eassumption| |].
      * intros x Hx. apply HF'. assumption.
      * intros x Hx. apply sub_encl; [apply HF'; assumption | auto].
Qed.

(** ** Queries *)

Section Selects.
Context {A : Type} (P : A -> Prop).

Lemma selects_perm l l' h : Permutation l l' -> selects P l h -> selects P l' h.
Proof. intros HP (m & H1 & H2 & H3). exists m. split; [rewrite <- HP; assumption | auto]. Qed.
Lemma selects_app l1 h1 l2 h2 : selects P l1 h1 -> selects P l2 h2 -> selects P (l1 ++ l2) (h1 ++ h2).
Proof.
  intros (m1 & A1 & B1 & C1) (m2 & A2 & B2 & C2). exists (m1 ++ m2). split; [|split].
  - rewrite A1, A2. rewrite <- !app_assoc. apply Permutation_app_head.
    rewrite !app_assoc. apply Permutation_app_tail. apply Permutation_app_comm.
  - apply Forall_app; auto.
  - apply Forall_app; auto.
Qed.
Lemma selects_none l : (forall x, In x l -> ~ P x) -> selects P l [].
Proof. intros H. exists l. split; [reflexivity|]. split; [constructor|]. apply Forall_forall. assumption. Qed.
Lemma selects_one x : P x -> selects P [x] [x].
Proof. intros H. exists []. split; [reflexivity|]. split; constructor; auto. Qed.
Lemma selects_nil : selects P [] [].
Proof. exists []. split; [constructor|]. split; constructor. Qed.
End Selects.

Lemma selects_ext {A} (P Q : A -> Prop) l h : (forall x, In x l -> (P x <-> Q x)) -> selects P l h -> selects Q l h.
Proof.
  intros HE (m & H1 & H2 & H3). exists m. split; [assumption|]. rewrite Forall_forall in H2, H3. rewrite !Forall_forall.
  assert (X : forall x, In x (h ++ m) -> In x l) by (intros x; apply Permutation_in; symmetry; assumption).
  split; intros x Hx.
  - apply HE; [apply X, in_or_app; auto | auto].
  - rewrite <- HE; [auto | apply X, in_or_app; auto].
Qed.

Lemma traverse_spec bb os t q : wf bb os t ->
  selects (fun o => aabb_intersects (obox o) q = true) os (traverse_bvh t q).
Proof.
  induction 1 as [o|bb b1 b2 os1 os2 l r H1 IH1 H2 IH2 E1 E2 EM]; cbn.
  - destruct (aabb_intersects (obox o) q) eqn:E; [apply selects_one; assumption|].
    apply selects_none. intros x [<-|[]]. congruence.
  - destruct (aabb_intersects bb q) eqn:E; [apply selects_app; assumption|].
    apply selects_none. intros x Hx HI.
    assert (EX : encl (obox x) bb).
    { apply in_app_or in Hx. destruct Hx as [Hx|Hx].
      - exact (encl_trans _ _ _ (wf_encl _ _ _ H1 _ Hx) E1).
      - exact (encl_trans _ _ _ (wf_encl _ _ _ H2 _ Hx) E2). }
    rewrite (encl_intersects _ _ _ _ EX (encl_refl q) HI) in E. discriminate.
Qed.

Lemma build_traverse part order sort : partition_spec part -> axis_order_spec order -> sort_spec sort ->
  forall os bu q, Forall (fun o => proper (obox o)) os -> proper q ->
  exists t, build_bvh part order sort os bu = Some t /\
  selects (fun o => boxes_meet (obox o) q) os (traverse_bvh t q).
Proof.
  intros HP _ HS os bu q HF Hq. destruct os as [|o0 os0] eqn:EO.
  - exists BNull. rewrite build_nil. split; [reflexivity|]. apply selects_nil.
  - rewrite <- EO in *. destruct (build_spec part order sort HP HS os bu) as (t & bb & os' & E & W & P).
    { rewrite EO. congruence. }
    exists t. split; [assumption|]. eapply selects_ext.
    2: { eapply selects_perm; [symmetry; exact P|]. eapply traverse_spec. eassumption. }
    intros x Hx. rewrite Forall_forall in HF. apply intersects_common; auto.
Qed.

Lemma build_contains_point part order sort : partition_spec part -> axis_order_spec order -> sort_spec sort ->
  forall os bu p, Forall (fun o => proper (obox o)) os ->
  exists t, build_bvh part order sort os bu = Some t /\
  selects (fun o => inside (obox o) p) os (contains_point t p).
Proof.
  intros HP HO HS os bu p HF.
  assert (Hq : proper (Box p p)) by (intros ax; apply Qcle_refl).
  destruct (build_traverse part order sort HP HO HS os bu (Box p p) HF Hq) as (t & E & S).
  exists t. split; [assumption|]. eapply selects_ext; [|exact S].
  intros x _. split.
  - intros (y & Hy & Hp). replace p with y; [assumption|]. apply v3_ext. intros ax.
    destruct (Hp ax). apply Qcle_antisym; assumption.
  - intros H. exists p. split; [assumption|]. intros ax. split; apply Qcle_refl.
Qed.

(** ** Pair queries *)

Definition reports (P : obj * obj -> Prop) (all : list (obj * obj)) (out : list (bvh * bvh)) : Prop :=
  exists hits, Forall2 holds_pair out hits /\ selects P all hits.

Section Reports.
Variable P : obj * obj -> Prop.
Lemma reports_perm l l' o : Permutation l l' -> reports P l o -> reports P l' o.
Proof. intros HP (h & H1 & H2). exists h. split; [assumption|]. eapply selects_perm; eassumption. Qed.
Lemma reports_app l1 o1 l2 o2 : reports P l1 o1 -> reports P l2 o2 -> reports P (l1 ++ l2) (o1 ++ o2).
Proof.
  intros (h1 & A1 & B1) (h2 & A2 & B2). exists (h1 ++ h2).
  split; [apply Forall2_app; assumption | apply selects_app; assumption].
Qed.
Lemma reports_none l : (forall x, In x l -> ~ P x) -> reports P l [].
Proof. intros H. exists []. split; [constructor | apply selects_none; assumption]. Qed.
End Reports.

Lemma list_prod_app_r {A B} (l : list A) (a b : list B) :
  Permutation (list_prod l (a ++ b)) (list_prod l a ++ list_prod l b).
Proof.
  induction l as [|x l IH]; cbn; [constructor|]. rewrite map_app, IH, <- !app_assoc.
  apply Permutation_app_head. rewrite !app_assoc. apply Permutation_app_tail. apply Permutation_app_comm.
Qed.
Lemma list_prod_app_l {A B} (a b : list A) (l : list B) :
  list_prod (a ++ b) l = list_prod a l ++ list_prod b l.
Proof. induction a as [|x a IH]; cbn; [reflexivity|]. rewrite IH, app_assoc. reflexivity. Qed.

Lemma list_prod_four {A B} (a b : list A) (c d : list B) :
  Permutation (list_prod (a ++ b) (c ++ d)) (list_prod a c ++ list_prod a d ++ list_prod b c ++ list_prod b d).
Proof.
  rewrite list_prod_app_l. rewrite app_assoc. apply Permutation_app; apply list_prod_app_r.
Qed.

Lemma list_prod_perm {A B} (a a' : list A) (b b' : list B) :
  Permutation a a' -> Permutation b b' -> Permutation (list_prod a b) (list_prod a' b').
Proof.
  intros H1 H2. transitivity (list_prod a b').
  - clear H1. induction a as [|x a IH]; cbn; [constructor|]. apply Permutation_app; [|assumption].
    apply Permutation_map. assumption.
  - clear H2. induction H1; cbn.
    + constructor.
    + apply Permutation_app_head. assumption.
    + rewrite !app_assoc. apply Permutation_app_tail. apply Permutation_app_comm.
    + etransitivity; eassumption.
Qed.

(** Generic facts: how the pair set of two nodes splits. *)
Definition meets (p : obj * obj) : Prop := aabb_intersects (obox (fst p)) (obox (snd p)) = true.

Lemma wf_no_meet b1 os1 t1 b2 os2 t2 : wf b1 os1 t1 -> wf b2 os2 t2 ->
  aabb_intersects b1 b2 = false -> forall x, In x (list_prod os1 os2) -> ~ meets x.
Proof.
  intros W1 W2 E [x y] Hx HM. apply in_prod_iff in Hx. destruct Hx as [Hx Hy]. unfold meets in HM. cbn in HM.
  rewrite (encl_intersects _ _ _ _ (wf_encl _ _ _ W1 _ Hx) (wf_encl _ _ _ W2 _ Hy) HM) in E. discriminate.
Qed.

Fixpoint bsize (t : bvh) : nat := match t with BNull => 0 | BNode _ _ l r => S (bsize l + bsize r) end.

Inductive stack_ok : list (bvh * bvh) -> list (obj * obj) -> Prop :=
| so_nil : stack_ok [] []
| so_cons b1 os1 t1 b2 os2 t2 st ps : wf b1 os1 t1 -> wf b2 os2 t2 -> stack_ok st ps ->
    stack_ok ((t1, t2) :: st) (list_prod os1 os2 ++ ps).

Definition weight (st : list (bvh * bvh)) : nat :=
  fold_right (fun p n => (bsize (fst p) * bsize (snd p) + n)%nat) 0%nat st.

Lemma push_ok b1 os1 t1 b2 os2 t2 st ps : wf b1 os1 t1 -> wf b2 os2 t2 -> stack_ok st ps ->
  push t1 t2 st = (t1, t2) :: st.
Proof.
  intros W1 W2 _. unfold push. rewrite (wf_nonnull _ _ _ W1), (wf_nonnull _ _ _ W2). reflexivity.
Qed.

Lemma perm_four_rev {A} (a b c d : list A) : Permutation (d ++ c ++ b ++ a) (a ++ b ++ c ++ d).
Proof.
  transitivity (((a ++ b) ++ c) ++ d); [|rewrite <- !app_assoc; reflexivity].
  rewrite Permutation_app_comm. apply Permutation_app_tail.
  rewrite Permutation_app_comm. apply Permutation_app_tail. apply Permutation_app_comm.
Qed.

Lemma loop_spec : forall fuel st ps out, stack_ok st ps -> (weight st <= fuel)%nat ->
  exists new, intersect_loop fuel st out = Some (out ++ new) /\ reports meets ps new.
Proof.
  induction fuel as [|fuel IH]; intros st ps out HS HW.
  - inversion HS; subst.
    + exists []. cbn. rewrite app_nil_r. split; [reflexivity|]. apply reports_none. intros ? [].
    + exfalso. cbn in HW. destruct (wf_box _ _ _ H) as (? & ? & ? & ->).
      destruct (wf_box _ _ _ H0) as (? & ? & ? & ->). cbn in HW. lia.
  - inversion HS as [|b1 os1 t1 b2 os2 t2 st' ps' W1 W2 HS']; subst.
    + exists []. cbn. rewrite app_nil_r. split; [reflexivity|]. apply reports_none. intros ? [].
    + assert (HW' : (bsize t1 * bsize t2 + weight st' <= S fuel)%nat) by exact HW.
      assert (S1 : (0 < bsize t1)%nat) by (destruct (wf_box _ _ _ W1) as (? & ? & ? & ->); cbn; lia).
      assert (S2 : (0 < bsize t2)%nat) by (destruct (wf_box _ _ _ W2) as (? & ? & ? & ->); cbn; lia).
      cbn [intersect_loop]. destruct (aabb_intersects b1 b2) eqn:EI.
      2: { destruct (IH st' ps' out HS') as (new & E & R); [nia|].
           exists new. destruct (wf_box _ _ _ W1) as (? & ? & ? & ->). destruct (wf_box _ _ _ W2) as (? & ? & ? & ->).
           rewrite EI. cbn [negb]. split; [assumption|]. change new with ([] ++ new).
           apply reports_app; [|assumption]. apply reports_none. eapply wf_no_meet; eassumption. }
      assert (WX1 := W1). assert (WX2 := W2).
      destruct W1 as [o1|b1 c1 c2 p1 p2 l1 r1 V1 V2 I1 I2 IM]; destruct W2 as [o2|b2 d1 d2 q1 q2 l2 r2 U1 U2 J1 J2 JM];
        rewrite EI; cbn [negb has_obj is_null andb].
      * destruct (IH st' ps' (out ++ [(BNode (obox o1) (Some o1) BNull BNull, BNode (obox o2) (Some o2) BNull BNull)]) HS') as (new & E & R); [nia|].
        eexists. split; [rewrite E, <- app_assoc; reflexivity|]. apply reports_app; [|assumption].
        exists [(o1, o2)]. split; [repeat constructor|]. apply selects_one. exact EI.
      * set (n1 := BNode (obox o1) (Some o1) BNull BNull) in *.
        rewrite (push_ok _ _ _ _ _ _ _ _ WX1 U1 HS').
        assert (HS2 := so_cons _ _ _ _ _ _ _ _ WX1 U1 HS').
        rewrite (push_ok _ _ _ _ _ _ _ _ WX1 U2 HS2).
        assert (HS3 := so_cons _ _ _ _ _ _ _ _ WX1 U2 HS2).
        destruct (IH _ _ out HS3) as (new & E & R); [cbn in *; nia|].
        exists new. split; [assumption|]. eapply reports_perm; [|exact R].
        rewrite app_assoc. apply Permutation_app_tail. rewrite (list_prod_app_r [o1] q1 q2). apply Permutation_app_comm.
      * set (n2 := BNode (obox o2) (Some o2) BNull BNull) in *.
        rewrite (wf_nonnull _ _ _ V1). cbn [andb].
        rewrite (push_ok _ _ _ _ _ _ _ _ V1 WX2 HS').
        assert (HS2 := so_cons _ _ _ _ _ _ _ _ V1 WX2 HS').
        rewrite (push_ok _ _ _ _ _ _ _ _ V2 WX2 HS2).
        assert (HS3 := so_cons _ _ _ _ _ _ _ _ V2 WX2 HS2).
        destruct (IH _ _ out HS3) as (new & E & R); [cbn in *; nia|].
        exists new. split; [assumption|]. eapply reports_perm; [|exact R].
        rewrite app_assoc. apply Permutation_app_tail. rewrite (list_prod_app_l p1 p2). apply Permutation_app_comm.
      * rewrite (wf_nonnull _ _ _ V1), (wf_nonnull _ _ _ U1). cbn [andb].
        rewrite (push_ok _ _ _ _ _ _ _ _ V1 U1 HS').
        assert (HS2 := so_cons _ _ _ _ _ _ _ _ V1 U1 HS').
        rewrite (push_ok _ _ _ _ _ _ _ _ V1 U2 HS2).
        assert (HS3 := so_cons _ _ _ _ _ _ _ _ V1 U2 HS2).
        rewrite (push_ok _ _ _ _ _ _ _ _ V2 U1 HS3).
        assert (HS4 := so_cons _ _ _ _ _ _ _ _ V2 U1 HS3).
        rewrite (push_ok _ _ _ _ _ _ _ _ V2 U2 HS4).
        assert (HS5 := so_cons _ _ _ _ _ _ _ _ V2 U2 HS4).
        destruct (IH _ _ out HS5) as (new & E & R); [cbn in *; nia|].
        exists new. split; [assumption|]. eapply reports_perm; [|exact R].
        rewrite !app_assoc. apply Permutation_app_tail. rewrite list_prod_four.
        rewrite <- !app_assoc. apply perm_four_rev.
Qed.

Lemma reports_ext (P Q : obj * obj -> Prop) l o : (forall x, In x l -> (P x <-> Q x)) -> reports P l o -> reports Q l o.
Proof. intros HE (h & H1 & H2). exists h. split; [assumption|]. eapply selects_ext; eassumption. Qed.

Lemma build_any part order sort : partition_spec part -> sort_spec sort ->
  forall os bu, exists t, build_bvh part order sort os bu = Some t /\
   ((os = [] /\ t = BNull) \/ exists bb os', wf bb os' t /\ Permutation os os').
Proof.
  intros HP HS os bu. destruct os as [|o0 os0] eqn:EO.
  - exists BNull. rewrite build_nil. auto.
  - rewrite <- EO in *. destruct (build_spec part order sort HP HS os bu) as (t & bb & os' & E & W & P).
    { rewrite EO. congruence. }
    exists t. split; [assumption|]. right. eauto.
Qed.

Lemma list_prod_nil_r {A B} (l : list A) : list_prod l (@nil B) = [].
Proof. induction l; cbn; auto. Qed.

Lemma build_pairs_iterative part1 order1 sort1 part2 order2 sort2 :
  partition_spec part1 -> axis_order_spec order1 -> sort_spec sort1 ->
  partition_spec part2 -> axis_order_spec order2 -> sort_spec sort2 ->
  forall os1 bu1 os2 bu2,
  Forall (fun o => proper (obox o)) os1 -> Forall (fun o => proper (obox o)) os2 ->
  exists t1 t2 out hits n,
    build_bvh part1 order1 sort1 os1 bu1 = Some t1 /\ build_bvh part2 order2 sort2 os2 bu2 = Some t2 /\
    (forall fuel, (n <= fuel)%nat -> intersect_bvh_iterative fuel t1 t2 = Some out) /\
    Forall2 holds_pair out hits /\
    selects (fun p => boxes_meet (obox (fst p)) (obox (snd p))) (list_prod os1 os2) hits.
Proof.
  intros HP1 _ HS1 HP2 _ HS2 os1 bu1 os2 bu2 F1 F2.
  destruct (build_any part1 order1 sort1 HP1 HS1 os1 bu1) as (t1 & B1 & C1).
  destruct (build_any part2 order2 sort2 HP2 HS2 os2 bu2) as (t2 & B2 & C2).
  assert (HH : exists out n, (forall fuel, (n <= fuel)%nat -> intersect_bvh_iterative fuel t1 t2 = Some out) /\
                         reports meets (list_prod os1 os2) out).
  { destruct C1 as [[-> ->]|(b1 & os1' & W1 & P1)].
    - exists [], 1%nat. split.
      + intros [|f] Hf; [lia|]. unfold intersect_bvh_iterative. cbn. destruct f; reflexivity.
      + apply reports_none. intros ? [].
    - destruct C2 as [[-> ->]|(b2 & os2' & W2 & P2)].
      + exists [], 1%nat. split.
        * intros [|f] Hf; [lia|]. unfold intersect_bvh_iterative. cbn. destruct t1; destruct f; reflexivity.
        * rewrite list_prod_nil_r. apply reports_none. intros ? [].
      + assert (HSO := so_cons _ _ _ _ _ _ _ _ W1 W2 so_nil).
        destruct (loop_spec (weight [(t1, t2)]) _ _ [] HSO (le_n _)) as (out & E & R).
        exists out, (weight [(t1, t2)]). split.
        * intros fuel Hf. destruct (loop_spec fuel _ _ [] HSO Hf) as (out' & E' & _).
          unfold intersect_bvh_iterative. rewrite E'. cbn in *.
          assert (Mono : forall f st o r, intersect_loop f st o = Some r -> forall f', (f <= f')%nat -> intersect_loop f' st o = Some r).
          { clear. induction f as [|f IH]; intros st o r E f' Hf.
            - destruct st as [|[] ?]; [|discriminate]. destruct f'; exact E.
            - destruct st as [|[n1 n2] st]; [destruct f'; exact E|]. destruct f' as [|f']; [lia|].
              cbn [intersect_loop] in *. assert (f <= f')%nat by lia.
              destruct n1; [apply IH; assumption|]. destruct n2; [apply IH; assumption|].
              repeat match goal with |- context [if ?b then _ else _] => destruct b end; apply IH; assumption. }
          apply (Mono _ _ _ _ E) in Hf. congruence.
        * rewrite app_nil_r in R. eapply reports_perm; [|exact R]. apply list_prod_perm; symmetry; assumption. }
  destruct HH as (out & n & HF & R).
  apply (reports_ext _ (fun p => boxes_meet (obox (fst p)) (obox (snd p)))) in R.
  - destruct R as (hits & R1 & R2). exists t1, t2, out, hits, n. auto.
  - intros [x y] Hx. apply in_prod_iff in Hx. destruct Hx as [Hx Hy]. rewrite Forall_forall in F1, F2.
    apply intersects_common; auto.
Qed.

(** ** Recursive pair query *)

Definition big (p : obj * obj) : Prop :=
  exists c, aabb_intersection (obox (fst p)) (obox (snd p)) = Some c /\ lit_1em6 <= aabb_volume c.

Lemma intersection_encl a a' b b' c c' : encl a a' -> encl b b' ->
  aabb_intersection a b = Some c -> aabb_intersection a' b' = Some c' -> encl c c'.
Proof.
  intros H1 H2 E E' ax. destruct (H1 ax), (H2 ax).
  rewrite (intersection_min _ _ _ _ E), (intersection_max _ _ _ _ E), (intersection_min _ _ _ _ E'), (intersection_max _ _ _ _ E').
  split.
  - apply Qcmax_lub; (eapply Qcle_trans; [eassumption|]); [apply Qcmax_ge_l | apply Qcmax_ge_r].
  - apply Qcmin_glb; (eapply Qcle_trans; [|eassumption]); [apply Qcmin_le_l | apply Qcmin_le_r].
Qed.

Lemma intersection_proper a b c : proper a -> proper b -> aabb_intersection a b = Some c -> proper c.
Proof.
  intros Ha Hb E ax. rewrite (intersection_min _ _ _ _ E), (intersection_max _ _ _ _ E).
  assert (X : aabb_intersects a b = true) by (apply intersection_some; eauto).
  rewrite intersects_iff in X. destruct (X ax). apply Qcmax_lub; apply Qcmin_glb; auto.
Qed.

Lemma wf_no_big b1 os1 t1 b2 os2 t2 : wf b1 os1 t1 -> wf b2 os2 t2 -> prop os1 -> prop os2 ->
  (aabb_intersection b1 b2 = None \/ exists c, aabb_intersection b1 b2 = Some c /\ aabb_volume c < lit_1em6) ->
  forall x, In x (list_prod os1 os2) -> ~ big x.
Proof.
  intros W1 W2 P1 P2 HC [x y] Hx (c & E & V). apply in_prod_iff in Hx. destruct Hx as [Hx Hy]. cbn in E.
  assert (E1 := wf_encl _ _ _ W1 _ Hx). assert (E2 := wf_encl _ _ _ W2 _ Hy).
  assert (X : aabb_intersects b1 b2 = true).
  { eapply encl_intersects; [exact E1|exact E2|]. apply intersection_some. eauto. }
  apply intersection_some in X. destruct X as [c' E']. rewrite E' in HC.
  destruct HC as [HC|(c'' & HC & HV)]; [discriminate|]. injection HC as <-.
  assert (EC := intersection_encl _ _ _ _ _ _ E1 E2 E E').
  assert (PC := intersection_proper _ _ _ (P1 _ Hx) (P2 _ Hy) E).
  destruct (encl_volume _ _ PC EC) as [_ HL]. 
  eapply Qcle_not_lt; [|exact HV]. eapply Qcle_trans; eassumption.
Qed.

Lemma rec_spec b1 os1 t1 : wf b1 os1 t1 -> prop os1 -> forall b2 os2 t2, wf b2 os2 t2 -> prop os2 ->
  reports big (list_prod os1 os2) (intersect_bvh t1 t2).
Proof.
  induction 1 as [o1|b1 c1 c2 p1 p2 l1 r1 V1 IHl V2 IHr I1 I2 IM]; intros PR1 b2 os2 t2 W2 PR2.
  - set (n1 := BNode (obox o1) (Some o1) BNull BNull).
    assert (W1 : wf (obox o1) [o1] n1) by constructor.
    induction W2 as [o2|b2 d1 d2 q1 q2 l2 r2 U1 IH1 U2 IH2 J1 J2 JM].
    + assert (W2 := wf_leaf o2). cbn [intersect_bvh n1]. fold n1. destruct (aabb_intersection (obox o1) (obox o2)) as [c|] eqn:E.
      * destruct (aabb_volume c <? lit_1em6) eqn:EV.
        -- apply reports_none. eapply wf_no_big; try eassumption. right. exists c. split; [assumption|]. apply Qcltb_iff. assumption.
        -- exists [(o1, o2)]. split; [repeat constructor|]. apply selects_one. exists c. split; [assumption|]. apply Qcltb_false. assumption.
      * apply reports_none. eapply wf_no_big; try eassumption. left. assumption.
    + assert (WX2 : wf b2 (q1 ++ q2) (BNode b2 None l2 r2)) by (econstructor; eassumption).
      apply prop_app in PR2 as PR2'. destruct PR2' as [PA PB].
      specialize (IH1 PA). specialize (IH2 PB).
      cbn [intersect_bvh n1]. fold n1.
      destruct (aabb_intersection (obox o1) b2) as [c|] eqn:E.
      2: { apply reports_none. eapply wf_no_big; try eassumption. left. assumption. }
      destruct (aabb_volume c <? lit_1em6) eqn:EV.
      { apply reports_none. eapply wf_no_big; try eassumption. right. exists c. split; [assumption|]. apply Qcltb_iff. assumption. }
      cbn [has_obj andb is_null].
      eapply reports_perm; [symmetry; apply list_prod_app_r|]. apply reports_app; assumption.
  - assert (WX1 : wf b1 (p1 ++ p2) (BNode b1 None l1 r1)) by (econstructor; eassumption).
    apply prop_app in PR1 as PR1'. destruct PR1' as [PA PB]. specialize (IHl PA). specialize (IHr PB).
    assert (WX2 := W2).
    destruct W2 as [o2|b2 d1 d2 q1 q2 l2 r2 U1 U2 J1 J2 JM]; cbn [intersect_bvh].
    + destruct (aabb_intersection b1 (obox o2)) as [c|] eqn:E.
      2: { apply reports_none. eapply wf_no_big; try eassumption. left. assumption. }
      destruct (aabb_volume c <? lit_1em6) eqn:EV.
      { apply reports_none. eapply wf_no_big; try eassumption. right. exists c. split; [assumption|]. apply Qcltb_iff. assumption. }
      cbn [has_obj andb]. rewrite (wf_nonnull _ _ _ V1). cbn [andb is_null].
      rewrite list_prod_app_l. apply reports_app; [exact (IHl _ _ _ WX2 PR2) | exact (IHr _ _ _ WX2 PR2)].
    + destruct (aabb_intersection b1 b2) as [c|] eqn:E.
      2: { apply reports_none. eapply wf_no_big; try eassumption. left. assumption. }
      destruct (aabb_volume c <? lit_1em6) eqn:EV.
      { apply reports_none. eapply wf_no_big; try eassumption. right. exists c. split; [assumption|]. apply Qcltb_iff. assumption. }
      cbn [has_obj andb]. rewrite (wf_nonnull _ _ _ V1), (wf_nonnull _ _ _ U1). cbn [andb is_null].
      apply prop_app in PR2. destruct PR2 as [QA QB].
      eapply reports_perm; [symmetry; apply list_prod_four|].
      apply reports_app; [exact (IHl _ _ _ U1 QA)|]. apply reports_app; [exact (IHl _ _ _ U2 QB)|].
      apply reports_app; [exact (IHr _ _ _ U1 QA) | exact (IHr _ _ _ U2 QB)].
Qed.

Lemma big_overlap a b : proper a -> proper b ->
  (exists c, aabb_intersection a b = Some c /\ lit_1em6 <= aabb_volume c) <->
  (exists v, overlap_volume a b v /\ lit_1em6 <= v).
Proof.
  intros Ha Hb. split.
  - intros (c & E & V). exists (aabb_volume c). split; [|assumption]. exists c.
    split; [exact (intersection_proper _ _ _ Ha Hb E)|]. split; [apply intersection_points; assumption | reflexivity].
  - intros (v & (c & Hc & HI & HV) & Hv).
    assert (X : aabb_intersects a b = true).
    { apply intersects_common; [assumption..|]. exists (bmin c). apply HI. apply proper_inside_min. assumption. }
    apply intersection_some in X. destruct X as [c' E]. exists c'. split; [assumption|].
    assert (PC := intersection_proper _ _ _ Ha Hb E).
    assert (HS : subbox c c').
    { intros p Hp. apply (intersection_points _ _ _ E). apply HI. assumption. }
    destruct (volume_monotone _ _ Hc HS) as [_ HL]. rewrite HV in HL. eapply Qcle_trans; eassumption.
Qed.

Lemma build_pairs_recursive part1 order1 sort1 part2 order2 sort2 :
  partition_spec part1 -> axis_order_spec order1 -> sort_spec sort1 ->
  partition_spec part2 -> axis_order_spec order2 -> sort_spec sort2 ->
  forall os1 bu1 os2 bu2,
  Forall (fun o => proper (obox o)) os1 -> Forall (fun o => proper (obox o)) os2 ->
  exists t1 t2 hits,
    build_bvh part1 order1 sort1 os1 bu1 = Some t1 /\ build_bvh part2 order2 sort2 os2 bu2 = Some t2 /\
    Forall2 holds_pair (intersect_bvh t1 t2) hits /\
    selects (fun p => exists v, overlap_volume (obox (fst p)) (obox (snd p)) v /\ lit_1em6 <= v)
            (list_prod os1 os2) hits.
Proof.
  intros HP1 _ HS1 HP2 _ HS2 os1 bu1 os2 bu2 F1 F2.
  destruct (build_any part1 order1 sort1 HP1 HS1 os1 bu1) as (t1 & B1 & C1).
  destruct (build_any part2 order2 sort2 HP2 HS2 os2 bu2) as (t2 & B2 & C2).
  rewrite Forall_forall in F1, F2.
  assert (R : reports big (list_prod os1 os2) (intersect_bvh t1 t2)).
  { destruct C1 as [[-> ->]|(b1 & os1' & W1 & P1)].
    - destruct t2; apply reports_none; intros ? [].
    - destruct C2 as [[-> ->]|(b2 & os2' & W2 & P2)].
      + rewrite list_prod_nil_r. destruct t1; apply reports_none; intros ? [].
      + eapply reports_perm; [apply list_prod_perm; symmetry; eassumption|].
        eapply rec_spec; try eassumption; (eapply prop_perm; [eassumption|]); assumption. }
  apply (reports_ext _ (fun p => exists v, overlap_volume (obox (fst p)) (obox (snd p)) v /\ lit_1em6 <= v)) in R.
  - destruct R as (hits & R1 & R2). exists t1, t2, hits. auto.
  - intros [x y] Hx. apply in_prod_iff in Hx. destruct Hx as [Hx Hy]. apply big_overlap; auto.
Qed.

(** ** Copies *)

Lemma copy_empty t q : traverse_bvh (bvh_copy t) q = [].
Proof.
  induction t as [|bb o l IHl r IHr]; cbn; [reflexivity|].
  destruct (aabb_intersects bb q); [|reflexivity]. rewrite IHl, IHr. reflexivity.
Qed.

(** ** Concrete oracles *)

Section InsSort.
Context {A : Type} (key : A -> Qc).
Fixpoint ins (x : A) (l : list A) : list A :=
  match l with
  | [] => [x]
  | y :: t => if key x <=? key y then x :: l else y :: ins x t
  end.
Definition isort (l : list A) : list A := fold_right ins [] l.
Inductive srt : list A -> Prop :=
| srt_nil : srt []
| srt_cons x l : (forall y, In y l -> key x <= key y) -> srt l -> srt (x :: l).
Lemma ins_perm x l : Permutation (x :: l) (ins x l).
Proof.
  induction l as [|y t IH]; cbn; [reflexivity|]. destruct (_ <=? _); [reflexivity|].
  rewrite perm_swap. apply perm_skip. assumption.
Qed.
Lemma isort_perm l : Permutation l (isort l).
Proof. induction l as [|x t IH]; cbn; [reflexivity|]. rewrite <- ins_perm. apply perm_skip. assumption. Qed.
Lemma ins_srt x l : srt l -> srt (ins x l).
Proof.
  induction 1 as [|y l Hy Hs IH]; cbn.
  - constructor; [intros ? [] | constructor].
  - destruct (_ <=? _) eqn:E.
    + constructor; [|constructor; assumption]. intros z [<-|Hz]; [qc_lra|]. apply Hy in Hz. qc_lra.
    + constructor; [|assumption]. intros z Hz.
      apply (Permutation_in (l' := x :: l)) in Hz; [|symmetry; apply ins_perm].
      destruct Hz as [<-|Hz]; [qc_lra | apply Hy; assumption].
Qed.
Lemma isort_srt l : srt (isort l).
Proof. induction l; cbn; [constructor | apply ins_srt; assumption]. Qed.
Lemma srt_nth l : srt l -> forall i j a b, (i < j)%nat -> nth_error l i = Some a -> nth_error l j = Some b -> key a <= key b.
Proof.
  induction 1 as [|x l Hx Hs IH]; intros i j a b Hij Ha Hb.
  - destruct i; discriminate.
  - destruct j as [|j]; [lia|]. destruct i as [|i]; cbn in *.
    + injection Ha as <-. apply Hx. eapply nth_error_In. eassumption.
    + eapply IH; [|eassumption..]. lia.
Qed.
End InsSort.

Definition demo_part : partition_fn := @partition obj.
Definition demo_order : axis_order := fun ext => isort (fun a => - coord ext a) [AX; AY; AZ].
Definition demo_sort : sort_fn := fun ax => isort (fun l => coord (bmin (lbox l)) ax).

Lemma demo_part_ok : partition_spec demo_part.
Proof.
  intros p l. induction l as [|x l IH]; intros a b E; cbn in E.
  - injection E as <- <-. split; [constructor|]. split; intros ? [].
  - unfold demo_part in *. destruct (partition p l) as [u v] eqn:EP. destruct (IH u v eq_refl) as (P & H1 & H2).
    destruct (p x) eqn:Ex; injection E as <- <-.
    + split; [cbn; apply perm_skip; assumption|]. split; [|assumption]. intros y [<-|Hy]; auto.
    + split; [rewrite P; apply Permutation_middle|]. split; [assumption|]. intros y [<-|Hy]; auto.
Qed.
Lemma demo_order_ok : axis_order_spec demo_order.
Proof.
  intros ext. split; [apply isort_perm|]. intros i j a b Hij Ha Hb.
  assert (H := srt_nth _ _ (isort_srt _ _) i j a b Hij Ha Hb). cbn beta in H. qc_lra.
Qed.
Lemma demo_sort_ok : sort_spec demo_sort.
Proof.
  intros ax l. split; [apply isort_perm|]. intros i j a b Hij Ha Hb.
  exact (srt_nth _ _ (isort_srt _ _) i j a b Hij Ha Hb).
Qed.

Definition unit_box (x : Z) : aabb := Box (V3 (qc x 1) 0 0) (V3 (qc (x + 1) 1) 1 1).

Lemma recursive_misses :
  exists part order sort objs1 objs2 t1 t2 x y,
    partition_spec part /\ axis_order_spec order /\ sort_spec sort /\
    Forall (fun o => proper (obox o)) objs1 /\ Forall (fun o => proper (obox o)) objs2 /\
    build_bvh part order sort objs1 false = Some t1 /\ build_bvh part order sort objs2 false = Some t2 /\
    In x objs1 /\ In y objs2 /\ boxes_meet (obox x) (obox y) /\
    intersect_bvh t1 t2 = [].
Proof.
  exists demo_part, demo_order, demo_sort, [Obj 1 (unit_box 0)], [Obj 2 (unit_box 1)].
  do 2 eexists. exists (Obj 1 (unit_box 0)), (Obj 2 (unit_box 1)).
  split; [apply demo_part_ok|]. split; [apply demo_order_ok|]. split; [apply demo_sort_ok|].
  split; [repeat constructor; intros [| |]; vm_compute; discriminate|].
  split; [repeat constructor; intros [| |]; vm_compute; discriminate|].
  split; [reflexivity|]. split; [reflexivity|].
  split; [left; reflexivity|]. split; [left; reflexivity|]. split.
  - exists (V3 1 0 0). split; intros [| |]; split; vm_compute; discriminate.
  - vm_compute. reflexivity.
Qed.

Lemma copy_loses :
  exists t q, traverse_bvh (bvh_copy t) q <> traverse_bvh t q /\
  (forall t' q', traverse_bvh (bvh_copy t') q' = []).
Proof.
  exists (BNode (unit_box 0) (Some (Obj 1 (unit_box 0))) BNull BNull), (unit_box 0).
  split; [vm_compute; discriminate | exact copy_empty].
Qed.

Lemma setRight_wrong :
  exists t child, match bvh_setRight t child with
  | (BNode _ _ l r, _) => l = child /\ r <> child /\ (forall bb o l0 r0, t = BNode bb o l0 r0 -> l0 <> l /\ r0 = r)
  | (BNull, _) => False
  end.
Proof.
  exists (BNode (unit_box 0) None (BNode (unit_box 1) None BNull BNull) BNull), (BNode (unit_box 2) None BNull BNull).
  cbn. split; [reflexivity|]. split; [discriminate|]. intros ? ? ? ? [= <- <- <- <-]. split; [|reflexivity].
  intros E. apply (f_equal (fun t => match t with BNode bb _ _ _ => vx (bmin bb) | BNull => 0 end)) in E.
  vm_compute in E. discriminate.
Qed.

(** ** What copying and assigning keep *)

Lemma copy_shape t : forall path, box_at (node_at (bvh_copy t) path) = box_at (node_at t path) /\ node_object (node_at (bvh_copy t) path) = None.
Proof.
  induction t as [|bb o l IHl r IHr]; intros path; [destruct path as [|[] ?]; split; reflexivity|].
  destruct path as [|[] path]; [split; reflexivity|exact (IHr path)|exact (IHl path)].
Qed.
Lemma assign_shape self other : self <> BNull -> other <> BNull -> forall path,
  box_at (node_at (bvh_assign self other) path) = box_at (node_at other path) /\
  (path <> [] -> node_object (node_at (bvh_assign self other) path) = None) /\
  (node_object (bvh_assign self other) = match node_object other with Some _ => node_object self | None => None end).
Proof.
  intros S0 O0 path. destruct self as [|sb so sl sr]; [congruence|]. destruct other as [|bb o l r]; [congruence|]. split; [|split; [|reflexivity]].
  - destruct path as [|[] path]; [reflexivity|exact (proj1 (copy_shape r path))|exact (proj1 (copy_shape l path))].
  - destruct path as [|[] path]; intros P; [congruence|exact (proj2 (copy_shape r path))|exact (proj2 (copy_shape l path))].
Qed.
Lemma assign_keeps_old : exists self other q x y,
  In x (traverse_bvh self q) /\ In y (traverse_bvh other q) /\ x <> y /\
  traverse_bvh (bvh_assign self other) q = [x].
Proof.
  exists (BNode (unit_box 0) (Some (Obj 1 (unit_box 0))) BNull BNull), (BNode (unit_box 0) (Some (Obj 2 (unit_box 0))) BNull BNull), (unit_box 0), (Obj 1 (unit_box 0)), (Obj 2 (unit_box 0)).
  split; [vm_compute; auto|]. split; [vm_compute; auto|]. split; [intros E; apply (f_equal oid) in E; discriminate|]. vm_compute. reflexivity.
Qed.
Lemma assign_inner_empty self other : self <> BNull -> other <> BNull -> node_object other = None -> forall q, traverse_bvh (bvh_assign self other) q = [].
Proof.
  intros S0 O0 N q. destruct self as [|sb so sl sr]; [congruence|]. destruct other as [|bb o l r]; [congruence|]. cbn in N. subst o. cbn.
  destruct (aabb_intersects bb q); [|reflexivity]. rewrite !copy_empty. reflexivity.
Qed.
