(** Numbering, references, kinds and brackets of an export. *)
From Coq Require Import String Ascii List ZArith QArith Qcanon Bool Lia.
From Verif Require Import Base BaseFacts LoopFacts ModelVec ModelNurbs ModelMemView ModelSurface ModelStep SpecNurbs SpecStep ProofRefineMisc ProofStep ProofStepSurf.
Import ListNotations.
Open Scope Z_scope.

Lemma ids_ok s id out bs id' out' : ns_step s (id, out) = Ok (bs, (id', out')) ->
  exists new, out' = out ++ new /\ id' = id + Z.of_nat (List.length new) /\ map fst new = from id (List.length new).
Proof. intros E. destruct (ns_step_adds _ _ _ _ E) as (new & [A1 A2] & _). cbn [fst snd] in *. injection A1 as -> ->. exists new. repeat split. exact A2. Qed.

Lemma from_nodup a n : NoDup (from a n).
Proof. unfold from. apply FinFun.Injective_map_NoDup; [intros x y H; lia|apply seq_NoDup]. Qed.
Lemma file_ok s out : write_step_file true s = Ok out -> map fst out = from 10 (List.length out).
Proof.
  unfold write_step_file. intros E. apply bind_inv in E as ([bs [id' o]] & E & E'). injection E' as <-. destruct (ids_ok _ _ _ _ _ _ E) as (new & -> & _ & M). cbn [app]. exact M.
Qed.

(** ** references *)
Lemma corner_range k ps : Forall (fun v => k <= v < k + Z.of_nat (List.length (corner_lines k ps))) (corner_ids k ps).
Proof.
  revert k. induction ps as [|p ps IH]; intros k; constructor; [cbn [corner_lines List.length]; lia|]. eapply Forall_impl; [|apply IH]. intros v H. cbn [corner_lines List.length]. cbv beta in H. lia.
Qed.
Lemma corner_fine k ps : fine k (k + Z.of_nat (List.length (corner_lines k ps))) (corner_lines k ps).
Proof.
  revert k. induction ps as [|p ps IH]; intros k; [constructor|]. cbn [corner_lines List.length]. constructor; [split; [intros r []|reflexivity]|].
  constructor; [split; [intros r [<-|[]]; lia|reflexivity]|]. eapply fine_weaken; [| |apply IH]; lia.
Qed.
Lemma block_last c id0 b i : curve_block c id0 b -> (exists l, last b (0, []) = l /\ fst l = i) ->
  exists ids, In (i, curve_text c ids) b /\ id0 <= i < id0 + Z.of_nat (List.length b).
Proof.
  intros (pts & -> & _ & M) (l & <- & <-). rewrite last_last. cbn [fst]. eexists. split; [apply in_app_iff; right; left; reflexivity|]. rewrite app_length. cbn [List.length]. lia.
Qed.

Lemma tail_within lo hi k bs c0 c1 c2 c3 v0 v1 v2 v3 : lo <= k -> k + 29 <= hi ->
  Forall (fun r => lo <= r < hi) [bs; c0; c1; c2; c3; v0; v1; v2; v3] ->
  Forall (within lo hi) (tail_lines k bs c0 c1 c2 c3 v0 v1 v2 v3).
Proof.
  intros H1 H2 F. repeat match goal with H : Forall _ (_ :: _) |- _ => inversion H; clear H; subst end.
  unfold tail_lines. cbv zeta. repeat (constructor; [unfold within, edge; cbn [snd refs app txt commas]; intros r Hr; cbn [In] in Hr; intuition lia|]). constructor.
Qed.
Definition cat_line (t : text) : Prop := kind t = "PRODUCT_RELATED_PRODUCT_CATEGORY"%string.
Lemma tail_brackets k bs c0 c1 c2 c3 v0 v1 v2 v3 :
  Forall (fun l => if String.eqb (kind (snd l)) "PRODUCT_RELATED_PRODUCT_CATEGORY" then brackets 0 (snd l) = false else brackets 0 (snd l) = true) (tail_lines k bs c0 c1 c2 c3 v0 v1 v2 v3).
Proof. unfold tail_lines. cbv zeta. repeat (constructor; [reflexivity|]). constructor. Qed.

Lemma surface_text_refs s P ids : refs (surface_text s P ids) = concat ids.
Proof.
  unfold surface_text. destruct (knots_text (ns_ku s)) as [mu ku] eqn:KU. destruct (knots_text (ns_kv s)) as [mv kv] eqn:KV.
  destruct (refs_knots (ns_ku s)) as [R1 R2]. destruct (refs_knots (ns_kv s)) as [R3 R4]. rewrite KU in R1, R2. rewrite KV in R3, R4. cbn [fst snd] in *.
  rewrite refs_app, refs_txt. cbn [app refs]. rewrite refs_app, refs_txt. cbn [app refs]. rewrite !refs_app, !refs_txt, !refs_bracket, R1, R2, R3, R4. cbn [app].
  rewrite (flat_none (fun row => bracket (map (fun q => [Num (ww q)]) row))) by (intros x; rewrite refs_bracket; apply flat_none; reflexivity). cbn [app]. rewrite !app_nil_r.
  induction ids as [|x ids IH]; [reflexivity|]. cbn [map flat_map concat]. rewrite IH, refs_bracket, flat_refs. reflexivity.
Qed.
Lemma neutral_int k : neutral [Int k]. Proof. intros d. reflexivity. Qed.
Lemma surface_text_closed s P ids : brackets 0 (surface_text s P ids) = true.
Proof.
  unfold surface_text. destruct (knots_text (ns_ku s)) as [mu ku] eqn:KU. destruct (knots_text (ns_kv s)) as [mv kv] eqn:KV.
  destruct (neutral_knots (ns_ku s)) as [R1 R2]. destruct (neutral_knots (ns_kv s)) as [R3 R4]. rewrite KU in R1, R2. rewrite KV in R3, R4. cbn [fst snd] in *.
  assert (neutral (bracket (map (fun row => bracket (map (fun id => [Ref id]) row)) ids))) as N1.
  { apply neutral_bracket. apply Forall_forall. intros t H. apply in_map_iff in H as (x & <- & _). apply neutral_bracket, ref_neutral. }
  assert (neutral (bracket (map (fun row => bracket (map (fun q => [Num (ww q)]) row)) P))) as N2.
  { apply neutral_bracket. apply Forall_forall. intros t H. apply in_map_iff in H as (x & <- & _). apply neutral_bracket, num_neutral. }
  rewrite runb_brackets, runb_app.
  match goal with |- context [runb 0 (txt ?s)] => change (runb 0 (txt s)) with (Some 1%nat) end. cbv beta iota. cbn [runb]. rewrite runb_app.
  change (runb 1 (txt ", ")) with (Some 1%nat). cbv beta iota. cbn [runb]. rewrite runb_app. change (runb 1 (txt ", ")) with (Some 1%nat). cbv beta iota.
  rewrite runb_app, N1, runb_app.
  match goal with |- context [runb 1 (txt ?s)] => change (runb 1 (txt s)) with (Some 1%nat) end. cbv beta iota. rewrite runb_app, R1, runb_app.
  change (runb 1 (txt ", ")) with (Some 1%nat). cbv beta iota. rewrite runb_app, R2, runb_app. change (runb 1 (txt ", ")) with (Some 1%nat). cbv beta iota.
  rewrite runb_app, R3, runb_app. change (runb 1 (txt ", ")) with (Some 1%nat). cbv beta iota. rewrite runb_app, R4, runb_app.
  match goal with |- context [runb 1 (txt ?s)] => change (runb 1 (txt s)) with (Some 1%nat) end. cbv beta iota. rewrite runb_app, N2. reflexivity.
Qed.

Lemma tail_length k bs c0 c1 c2 c3 v0 v1 v2 v3 : List.length (tail_lines k bs c0 c1 c2 c3 v0 v1 v2 v3) = 29%nat.
Proof. reflexivity. Qed.

(** the curves and the corners an edge refers to *)
Lemma export_ends s id new bs : export s id new bs ->
  exists P news blocks ps k t c0 c1 c2 c3 v0 v1 v2 v3,
    new = concat news ++ [(bs, surface_text s P (map (map fst) news))] ++ concat blocks ++ corner_lines k ps ++ tail_lines t bs c0 c1 c2 c3 v0 v1 v2 v3 /\
    Forall2 (Forall2 shows) news P /\ map fst (concat news) = from id (List.length (concat news)) /\
    bs = id + Z.of_nat (List.length (concat news)) /\ k = bs + 1 + Z.of_nat (List.length (concat blocks)) /\ t = k + Z.of_nat (List.length (corner_lines k ps)) /\
    fine (bs + 1) k (concat blocks) /\
    Forall (fun c => bs + 1 <= c < k /\ exists cv ids, In (c, curve_text cv ids) (concat blocks)) [c0; c1; c2; c3] /\
    corner_ids k ps = [v0; v1; v2; v3] /\
    Forall (fun l => closed_line l /\ (exists c ids, snd l = curve_text c ids /\ (forall r, In r ids -> exists p, In (r, point_text (wx p) (wy p) (wz p)) (concat blocks))) \/
                     (exists p, snd l = point_text (wx p) (wy p) (wz p))) (concat blocks).
Proof.
  intros (P & news & bnd & blocks & ps & c0 & c1 & c2 & c3 & v0 & v1 & v2 & v3 & _ & F & M & Ebs & _ & F3 & G & _ & K). cbv zeta in K. destruct K as (EV & ->).
  exists P, news, blocks, ps, (bs + 1 + Z.of_nat (List.length (concat blocks))). eexists. exists c0, c1, c2, c3, v0, v1, v2, v3.
  split; [reflexivity|]. split; [exact F|]. split; [exact M|]. split; [exact Ebs|]. split; [reflexivity|]. split; [reflexivity|]. split; [eapply blocks_fine; exact F3|].
  split; [|split; [exact EV|]].
  - set (hi := bs + 1 + Z.of_nat (List.length (concat blocks))) in *. clearbody hi. set (cs := [c0; c1; c2; c3]) in *. clearbody cs. clear - F3 G.
    revert cs G. induction F3 as [|c b bnd blocks (id0 & B & H1 & H2) _ IH]; intros cs G; inversion G as [|i ? cs' ? L G']; subst; constructor.
    + destruct (block_last _ _ _ _ B L) as (ids & I & R). split; [lia|]. exists c, ids. cbn [concat]. apply in_app_iff. left. exact I.
    + eapply Forall_impl; [|apply IH; exact G']. intros a (R & cv & ids & I). split; [exact R|]. exists cv, ids. cbn [concat]. apply in_app_iff. right. exact I.
  - set (hi := bs + 1 + Z.of_nat (List.length (concat blocks))) in *. clearbody hi. clear - F3.
    induction F3 as [|c b bnd blocks (id0 & B & H1 & H2) _ IH]; [constructor|]. cbn [concat]. apply Forall_app. split.
    + pose proof (curve_block_fine _ _ _ B) as FB. destruct B as (pts & -> & F & M). apply Forall_app. split.
      * apply Forall_forall. intros l I. right. clear - F I. induction F as [|l' q pts P E _ IH]; [destruct I|]. destruct I as [->|I]; [exists q; exact E|exact (IH I)].
      * constructor; [|constructor]. left. split; [apply curve_text_closed|]. exists c, (map fst pts). split; [reflexivity|]. intros r Hr. apply in_map_iff in Hr as ([i t] & <- & I).
        assert (exists p, t = point_text (wx p) (wy p) (wz p)) as (p & ->). { clear - F I. induction F as [|l q pts P E _ IH]; [destruct I|]. destruct I as [->|I]; [exists q; exact E|exact (IH I)]. }
        exists p. cbn [fst]. apply in_app_iff. left. apply in_app_iff. left. exact I.
    + eapply Forall_impl; [|exact IH]. intros l [(C & c' & ids & E & H)|H]; [left; split; [exact C|]; exists c', ids; split; [exact E|]|right; exact H].
      intros r Hr. destruct (H r Hr) as (p & I). exists p. apply in_app_iff. right. exact I.
Qed.

Lemma refs_ok s id out bs id' out' : ns_step s (id, out) = Ok (bs, (id', out')) ->
  exists new, out' = out ++ new /\ forall i t r, In (i, t) new -> In r (refs t) -> In r (map fst new).
Proof.
  intros E. destruct (ns_step_adds _ _ _ _ E) as (new & [A1 A2] & X). cbn [fst snd] in *. injection A1 as -> ->. exists new. split; [reflexivity|].
  intros i t r I R. rewrite A2, in_from. clear E A2.
  destruct (export_ends _ _ _ _ X) as (P & news & blocks & ps & k & t' & c0 & c1 & c2 & c3 & v0 & v1 & v2 & v3 & -> & F & M & Ebs & Ek & Et & FB & FC & EV & _).
  rewrite !app_length, tail_length. cbn [List.length]. apply in_app_iff in I as [I|I]; [|apply in_app_iff in I as [[I|[]]|I]].
  - pose proof (rows_fine 0 0 _ _ F) as Q. unfold fine in Q. rewrite Forall_forall in Q. destruct (Q _ I) as [W _]. specialize (W r R). lia.
  - injection I as <- <-. rewrite surface_text_refs in R. rewrite <- concat_map, M, in_from in R. lia.
  - apply in_app_iff in I as [I|I].
    + unfold fine in FB. rewrite Forall_forall in FB. destruct (FB _ I) as [W _]. specialize (W r R). lia.
    + apply in_app_iff in I as [I|I].
      * pose proof (corner_fine k ps) as Q. unfold fine in Q. rewrite Forall_forall in Q. destruct (Q _ I) as [W _]. specialize (W r R). lia.
      * pose proof (corner_range k ps) as V. rewrite EV in V.
        assert (Forall (within id (id + Z.of_nat (List.length (concat news) + (1 + (List.length (concat blocks) + (List.length (corner_lines k ps) + 29)))))) (tail_lines t' bs c0 c1 c2 c3 v0 v1 v2 v3)) as W.
        { apply tail_within; [lia|lia|]. constructor; [lia|]. repeat match goal with H : Forall _ (_ :: _) |- _ => inversion H; clear H; subst end.
          repeat (constructor; [lia|]). constructor. }
        rewrite Forall_forall in W. exact (W _ I r R).
Qed.

(** ** brackets *)
Lemma brackets_ok s id out bs id' out' : ns_step s (id, out) = Ok (bs, (id', out')) ->
  exists new, out' = out ++ new /\
    (exists i t, In (i, t) new /\ brackets 0 t = false) /\
    (forall i t, In (i, t) new -> kind t <> "PRODUCT_RELATED_PRODUCT_CATEGORY"%string -> brackets 0 t = true).
Proof.
  intros E. destruct (ns_step_adds _ _ _ _ E) as (new & [A1 A2] & X). cbn [fst snd] in *. injection A1 as -> ->. exists new. split; [reflexivity|]. clear E A2.
  destruct (export_ends _ _ _ _ X) as (P & news & blocks & ps & k & t' & c0 & c1 & c2 & c3 & v0 & v1 & v2 & v3 & -> & F & M & Ebs & Ek & Et & FB & FC & EV & _). split.
  - do 2 eexists. split; [do 3 (apply in_app_iff; right); apply in_app_iff; right; unfold tail_lines; cbv zeta; do 23 right; left; reflexivity|reflexivity].
  - intros i t I N. apply in_app_iff in I as [I|I]; [|apply in_app_iff in I as [[I|[]]|I]].
    + pose proof (rows_fine 0 0 _ _ F) as Q. unfold fine in Q. rewrite Forall_forall in Q. destruct (Q _ I) as [_ C]. exact C.
    + injection I as <- <-. apply surface_text_closed.
    + apply in_app_iff in I as [I|I].
      * unfold fine in FB. rewrite Forall_forall in FB. destruct (FB _ I) as [_ C]. exact C.
      * apply in_app_iff in I as [I|I].
        -- pose proof (corner_fine k ps) as Q. unfold fine in Q. rewrite Forall_forall in Q. destruct (Q _ I) as [_ C]. exact C.
        -- pose proof (tail_brackets t' bs c0 c1 c2 c3 v0 v1 v2 v3) as Q. rewrite Forall_forall in Q. specialize (Q _ I). cbn [snd] in Q. apply String.eqb_neq in N. rewrite N in Q. exact Q.
Qed.

(** ** kinds *)
Lemma kind_point x y z : kind (point_text x y z) = "CARTESIAN_POINT"%string. Proof. reflexivity. Qed.
Lemma kind_curve c ids : kind (curve_text c ids) = "RATIONAL_B_SPLINE_CURVE_WITH_KNOTS"%string.
Proof. unfold curve_text. destruct (knots_text (nc_knots c)). reflexivity. Qed.
Lemma kind_surface s P ids : kind (surface_text s P ids) = "RATIONAL_B_SPLINE_SURFACE_WITH_KNOTS"%string.
Proof. unfold surface_text. destruct (knots_text (ns_ku s)), (knots_text (ns_kv s)). reflexivity. Qed.
Lemma is_a_app_l a b i k : is_a a i k -> is_a (a ++ b) i k.
Proof. intros (t & I & E). exists t. split; [apply in_app_iff; left; exact I|exact E]. Qed.
Lemma is_a_app_r a b i k : is_a b i k -> is_a (a ++ b) i k.
Proof. intros (t & I & E). exists t. split; [apply in_app_iff; right; exact I|exact E]. Qed.

Lemma corner_kinds ps : forall k, Forall (fun v => is_a (corner_lines k ps) v "VERTEX_POINT") (corner_ids k ps).
Proof.
  induction ps as [|p ps IH]; intros k; constructor; [eexists; split; [right; left; reflexivity|reflexivity]|].
  eapply Forall_impl; [|apply IH]. intros v (t & I & E). exists t. split; [right; right; exact I|exact E].
Qed.
Lemma corner_refs ps : forall k i t, In (i, t) (corner_lines k ps) ->
  (exists x y z, t = point_text x y z) \/ (exists r, t = txt "VERTEX_POINT('', " ++ Ref r :: txt ")" /\ is_a (corner_lines k ps) r "CARTESIAN_POINT").
Proof.
  induction ps as [|p ps IH]; intros k i t; [intros []|]. intros [I|[I|I]].
  - injection I as <- <-. left. do 3 eexists. reflexivity.
  - injection I as <- <-. right. exists k. split; [reflexivity|]. eexists. split; [left; reflexivity|reflexivity].
  - destruct (IH _ _ _ I) as [H|(r & E & t' & I' & E')]; [left; exact H|right; exists r; split; [exact E|]]. exists t'. split; [right; right; exact I'|exact E'].
Qed.

Definition misdirected (k : string) : Prop :=
  In k ["PRODUCT_DEFINITION"; "PRODUCT_DEFINITION_CONTEXT"; "APPLICATION_PROTOCOL_DEFINITION"; "PRODUCT_DEFINITION_FORMATION_WITH_SPECIFIED_SOURCE"]%string.
Ltac tl := repeat first [left; reflexivity | right].
Ltac kinds H := repeat (first [constructor; [first [exact H | eassumption | eexists; split; [tl | reflexivity]]|] | constructor]).
Definition tail_good (lines : list line) (t : text) : Prop :=
  ~ misdirected (kind t) -> forall ks, wants (kind t) = Some ks -> Forall2 (is_a lines) (refs t) ks.
Lemma tail_kinds k bs c0 c1 c2 c3 v0 v1 v2 v3 lines :
  (forall i s, is_a (tail_lines k bs c0 c1 c2 c3 v0 v1 v2 v3) i s -> is_a lines i s) ->
  is_a lines bs "RATIONAL_B_SPLINE_SURFACE_WITH_KNOTS" ->
  Forall (fun c => is_a lines c "RATIONAL_B_SPLINE_CURVE_WITH_KNOTS") [c0; c1; c2; c3] -> Forall (fun v => is_a lines v "VERTEX_POINT") [v0; v1; v2; v3] ->
  Forall (fun l => tail_good lines (snd l)) (tail_lines k bs c0 c1 c2 c3 v0 v1 v2 v3).
Proof.
  intros S B C V. repeat match goal with H : Forall _ (_ :: _) |- _ => inversion H; clear H; subst end.
  repeat match goal with H : Forall _ [] |- _ => clear H end.
  assert (forall i t s, In (i, t) (tail_lines k bs c0 c1 c2 c3 v0 v1 v2 v3) -> kind t = s -> is_a lines i s) as T by (intros i t s I <-; apply S; exists t; split; [exact I|reflexivity]). clear S.
  remember (tail_lines k bs c0 c1 c2 c3 v0 v1 v2 v3) as tl0 eqn:Et. unfold tail_lines in Et. cbv zeta in Et. rewrite Et at 1.
  rewrite Et in T. clear Et.
  repeat (constructor; [cbn [snd]; intros N ks W; first [exfalso; apply N; unfold misdirected; cbn; tauto | cbn in W; first [discriminate W | injection W as <-; cbn [refs txt app edge commas];
     repeat (constructor; [first [assumption | eapply T; [tl|reflexivity]]|]); constructor]]|]). constructor.
Qed.

Lemma tail_no_spline k bs c0 c1 c2 c3 v0 v1 v2 v3 :
  Forall (fun l => (String.eqb (kind (snd l)) "RATIONAL_B_SPLINE_CURVE_WITH_KNOTS" || String.eqb (kind (snd l)) "RATIONAL_B_SPLINE_SURFACE_WITH_KNOTS")%bool = false) (tail_lines k bs c0 c1 c2 c3 v0 v1 v2 v3).
Proof. unfold tail_lines. cbv zeta. repeat (constructor; [reflexivity|]). constructor. Qed.
Lemma fst_unique {A} (l : list (Z * A)) i a b : NoDup (map fst l) -> In (i, a) l -> In (i, b) l -> a = b.
Proof.
  induction l as [|[j c] l IH]; [intros _ []|]. cbn [map fst]. intros N. inversion N as [|? ? H N']; subst. intros [Ea|Ia] [Eb|Ib].
  - congruence.
  - exfalso. apply H. injection Ea as -> ->. apply in_map_iff. exists (i, b). split; [reflexivity|exact Ib].
  - exfalso. apply H. injection Eb as -> ->. apply in_map_iff. exists (i, a). split; [reflexivity|exact Ia].
  - exact (IH N' Ia Ib).
Qed.
Lemma Forall2_head {A B} (R : A -> B -> Prop) a l b m : Forall2 R (a :: l) (b :: m) -> R a b.
Proof. intros H. inversion H. assumption. Qed.

Lemma kinds_ok s id out bs id' out' : ns_step s (id, out) = Ok (bs, (id', out')) ->
  exists new, out' = out ++ new /\
    (exists i t ks, In (i, t) new /\ wants (kind t) = Some ks /\ ~ Forall2 (is_a new) (refs t) ks) /\
    (forall i t, In (i, t) new ->
      (~ misdirected (kind t) -> forall ks, wants (kind t) = Some ks -> Forall2 (is_a new) (refs t) ks) /\
      (kind t = "RATIONAL_B_SPLINE_CURVE_WITH_KNOTS"%string \/ kind t = "RATIONAL_B_SPLINE_SURFACE_WITH_KNOTS"%string ->
       Forall (fun r => is_a new r "CARTESIAN_POINT") (refs t))).
Proof.
  intros E. destruct (ns_step_adds _ _ _ _ E) as (new & [A1 A2] & X). cbn [fst snd] in *. injection A1 as -> ->. exists new. split; [reflexivity|]. clear E.
  destruct (export_ends _ _ _ _ X) as (P & news & blocks & ps & k & t' & c0 & c1 & c2 & c3 & v0 & v1 & v2 & v3 & En & F & M & Ebs & Ek & Et & FB & FC & EV & FK).
  assert (forall i k, is_a (concat news) i k -> is_a new i k) as S1 by (intros i' k' H; rewrite En; apply is_a_app_l, H).
  assert (forall i k, is_a (concat blocks) i k -> is_a new i k) as S2 by (intros i' k' H; rewrite En; do 2 apply is_a_app_r; apply is_a_app_l, H).
  assert (forall i t, is_a (corner_lines k ps) i t -> is_a new i t) as S3 by (intros i' k' H; rewrite En; do 3 apply is_a_app_r; apply is_a_app_l, H).
  assert (forall i t, is_a (tail_lines t' bs c0 c1 c2 c3 v0 v1 v2 v3) i t -> is_a new i t) as S4 by (intros i' k' H; rewrite En; do 4 apply is_a_app_r; exact H).
  assert (Forall (fun l => tail_good new (snd l)) (tail_lines t' bs c0 c1 c2 c3 v0 v1 v2 v3)) as T.
  { apply tail_kinds; [exact S4| | |].
    - rewrite En. apply is_a_app_r, is_a_app_l. eexists. split; [left; reflexivity|apply kind_surface].
    - eapply Forall_impl; [|exact FC]. intros c (_ & cv & ids & I). apply S2. eexists. split; [exact I|apply kind_curve].
    - rewrite <- EV. eapply Forall_impl; [|apply corner_kinds]. intros v H. apply S3, H. }
  split.
  - assert (forall l, In l (tail_lines t' bs c0 c1 c2 c3 v0 v1 v2 v3) -> In l new) as I4 by (intros l H; rewrite En; do 4 (apply in_app_iff; right); exact H).
    do 3 eexists. split; [apply I4; unfold tail_lines; cbv zeta; do 21 right; left; reflexivity|]. split; [reflexivity|]. cbn [refs txt app].
    clear En. intros H. apply Forall2_head in H. destruct H as (t & I & K). assert (NoDup (map fst new)) as N by (rewrite A2; apply from_nodup).
    match type of I with In (?r, _) _ => match goal with |- _ => idtac end; pose proof (fun u => fst_unique _ r t u N I) as Q end.
    eassert (t = _) as Q'; [apply Q; apply I4; unfold tail_lines; cbv zeta; do 23 right; left; reflexivity|]. rewrite Q' in K. discriminate K.
  - intros i t I. rewrite En in I. apply in_app_iff in I as [I|I]; [|apply in_app_iff in I as [[I|[]]|I]].
    + assert (exists x y z, t = point_text x y z) as (x & y & z & ->).
      { clear - F I. induction F as [|n1 row news P F _ IH]; [destruct I|]. cbn [concat] in I. apply in_app_iff in I as [I|I]; [|exact (IH I)]. clear IH.
        induction F as [|l q n1 row (p & _ & Ep) _ IH]; [destruct I|]. destruct I as [->|I]; [|exact (IH I)]. cbn [snd] in Ep. do 3 eexists. exact Ep. }
      rewrite kind_point. split; [intros _ ks [=]|intros [H|H]; discriminate H].
    + injection I as <- <-. rewrite kind_surface. split; [intros _ ks [=]|intros _]. rewrite surface_text_refs, <- concat_map. apply Forall_forall. intros r Hr. apply in_map_iff in Hr as ([j t] & <- & I).
      apply S1. exists t. split; [exact I|]. clear - F I. induction F as [|n1 row news P F _ IH]; [destruct I|]. cbn [concat] in I. apply in_app_iff in I as [I|I]; [|exact (IH I)]. clear IH.
      induction F as [|l q n1 row (p & _ & Ep) _ IH]; [destruct I|]. destruct I as [->|I]; [|exact (IH I)]. cbn [snd] in Ep. rewrite Ep. reflexivity.
    + apply in_app_iff in I as [I|I]; [|apply in_app_iff in I as [I|I]].
      * rewrite Forall_forall in FK. destruct (FK _ I) as [(_ & c & ids & Ec & H)|(p & Ep)]; cbn [snd] in *.
        -- rewrite Ec, kind_curve. split; [intros _ ks [=]|intros _]. rewrite curve_text_refs. apply Forall_forall. intros r Hr. destruct (H r Hr) as (p & Ip). apply S2. eexists. split; [exact Ip|reflexivity].
        -- rewrite Ep, kind_point. split; [intros _ ks [=]|intros [W|W]; discriminate W].
      * destruct (corner_refs _ _ _ _ I) as [(x & y & z & ->)|(r & -> & H)].
        -- rewrite kind_point. split; [intros _ ks [=]|intros [W|W]; discriminate W].
        -- split; [|intros [W|W]; discriminate W]. intros _ ks W. cbn in W. injection W as <-. cbn [refs txt app]. constructor; [apply S3, H|constructor].
      * rewrite Forall_forall in T. specialize (T _ I). cbn [snd] in T. split; [exact T|]. intros W. exfalso. pose proof (tail_no_spline t' bs c0 c1 c2 c3 v0 v1 v2 v3) as Q. rewrite Forall_forall in Q. specialize (Q _ I). cbn [snd] in Q. destruct W as [W|W]; rewrite W in Q; discriminate Q.
Qed.
