(** The lines of an export: numbering, references, brackets. *)
From Coq Require Import List ZArith QArith Qcanon Bool String Ascii Lia.
From Verif Require Import Base BaseFacts LoopFacts ModelVec ModelNurbs ModelMemView ModelSurface ModelStep SpecNurbs SpecStep ProofRefineMisc.
Import ListNotations.
Open Scope Z_scope.

(** ** one line *)
Lemma emit_inv body id out i st : emit body (id, out) = Ok (i, st) -> i = id /\ st = (id + 1, out ++ [(id, body (id + 1))]).
Proof. unfold emit, int_op. destruct (_ && _); [|discriminate]. cbn. intros [= <- <-]. split; reflexivity. Qed.

(** new lines with consecutive numbers *)
Definition adds (st st' : sink) (new : list line) : Prop :=
  st' = (fst st + Z.of_nat (List.length new), snd st ++ new) /\ map fst new = from (fst st) (List.length new).

Lemma from_app a m n : from a (m + n) = from a m ++ from (a + Z.of_nat m) n.
Proof.
  apply (nth_ext _ _ 0 0); unfold from; [rewrite app_length, !map_length, !seq_length; reflexivity|]. intros i Hi. rewrite map_length, seq_length in Hi.
  assert (forall b k j, (j < k)%nat -> nth j (map (fun x => b + Z.of_nat x) (seq 0 k)) 0 = b + Z.of_nat j) as N.
  { intros b k j Hj. rewrite (nth_indep _ 0 (b + Z.of_nat 0)) by (rewrite map_length, seq_length; lia). rewrite (map_nth (fun x => b + Z.of_nat x)), seq_nth by lia. reflexivity. }
  rewrite N by lia. destruct (Nat.lt_ge_cases i m); [rewrite app_nth1, N by (rewrite ?map_length, ?seq_length; lia); reflexivity|].
  rewrite app_nth2 by (rewrite map_length, seq_length; lia). rewrite map_length, seq_length, N by lia. lia.
Qed.
Lemma adds_nil st : adds st st [].
Proof. destruct st. split; [cbn; rewrite Z.add_0_r, app_nil_r; reflexivity|reflexivity]. Qed.
Lemma adds_app a b c n1 n2 : adds a b n1 -> adds b c n2 -> adds a c (n1 ++ n2).
Proof.
  intros [-> A] [-> B]. cbn [fst snd] in *. split; cbn [fst snd]; rewrite app_length.
  - rewrite app_assoc. f_equal. lia.
  - rewrite from_app, map_app. f_equal; assumption.
Qed.
Lemma adds_one body st i st' : emit body st = Ok (i, st') -> i = fst st /\ adds st st' [(fst st, body (fst st + 1))].
Proof. destruct st as [id out]. intros E. apply emit_inv in E as (-> & ->). split; [reflexivity|]. split; cbn; [f_equal|unfold from; cbn; f_equal; lia]. Qed.
Lemma in_from a n x : In x (from a n) <-> a <= x < a + Z.of_nat n.
Proof.
  unfold from. rewrite in_map_iff. split.
  - intros (k & <- & H). apply in_seq in H. lia.
  - intros H. exists (Z.to_nat (x - a)). split; [lia|apply in_seq; lia].
Qed.

(** ** properties of all lines that were added *)
Definition within (lo hi : Z) (l : line) : Prop := forall r, In r (refs (snd l)) -> lo <= r < hi.
Definition closed_line (l : line) : Prop := brackets 0 (snd l) = true.

Lemma refs_app a b : refs (a ++ b) = refs a ++ refs b.
Proof. induction a as [|[] a IH]; cbn; rewrite ?IH; reflexivity. Qed.
Lemma refs_txt s : refs (txt s) = [].
Proof. induction s; cbn; auto. Qed.
Lemma refs_commas l : refs (commas l) = flat_map refs l.
Proof.
  induction l as [|x [|y l] IH]; [reflexivity|cbn; rewrite app_nil_r; reflexivity|].
  change (commas (x :: y :: l)) with (x ++ txt ", " ++ commas (y :: l)). rewrite !refs_app, refs_txt, IH. reflexivity.
Qed.
Lemma refs_bracket l : refs (bracket l) = flat_map refs l.
Proof. unfold bracket. rewrite !refs_app, !refs_txt, refs_commas, app_nil_r. reflexivity. Qed.
Lemma flat_none {A} (f : A -> text) l : (forall x, refs (f x) = []) -> flat_map refs (map f l) = [].
Proof. intros H. induction l as [|x l IH]; cbn; [reflexivity|]. rewrite H, IH. reflexivity. Qed.
Lemma flat_refs ids : flat_map refs (map (fun id => [Ref id]) ids) = ids.
Proof. induction ids as [|x l IH]; cbn; [reflexivity|]. rewrite IH. reflexivity. Qed.
Lemma refs_knots U : refs (fst (knots_text U)) = [] /\ refs (snd (knots_text U)) = [].
Proof. unfold knots_text. cbn [fst snd]. rewrite !refs_bracket. split; apply flat_none; reflexivity. Qed.

(** the running number of open brackets *)
Fixpoint runb (d : nat) (t : text) : option nat :=
  match t with
  | [] => Some d
  | Ch c :: t => if Ascii.eqb c "(" then runb (S d) t else if Ascii.eqb c ")" then match d with O => None | S k => runb k t end else runb d t
  | _ :: t => runb d t
  end.
Lemma runb_brackets t : forall d, brackets d t = match runb d t with Some k => Nat.eqb k 0 | None => false end.
Proof. induction t as [|[] t IH]; intros d; cbn [brackets runb]; auto. destruct (Ascii.eqb c "("); [auto|]. destruct (Ascii.eqb c ")"); [destruct d; auto|auto]. Qed.
Lemma runb_app a : forall b d, runb d (a ++ b) = match runb d a with Some k => runb k b | None => None end.
Proof.
  induction a as [|[c| | |] a IH]; intros b d; cbn [runb app]; auto.
  destruct (Ascii.eqb c "("); [apply IH|]. destruct (Ascii.eqb c ")"); [destruct d; [reflexivity|apply IH]|apply IH].
Qed.
Definition neutral (t : text) : Prop := forall d, runb d t = Some d.
Lemma neutral_app a b : neutral a -> neutral b -> neutral (a ++ b).
Proof. intros A B d. rewrite runb_app, A. apply B. Qed.
Lemma neutral_commas l : Forall neutral l -> neutral (commas l).
Proof.
  induction l as [|x [|y l] IH]; intros H; [intros d; reflexivity|inversion H; assumption|]. inversion H; subst.
  change (commas (x :: y :: l)) with (x ++ txt ", " ++ commas (y :: l)). apply neutral_app; [assumption|]. apply neutral_app; [intros d; reflexivity|auto].
Qed.
Lemma neutral_bracket l : Forall neutral l -> neutral (bracket l).
Proof. intros H d. unfold bracket. rewrite runb_app. change (runb d (txt "(")) with (Some (S d)). cbv iota beta. rewrite runb_app, (neutral_commas l H). reflexivity. Qed.
Lemma neutral_knots U : neutral (fst (knots_text U)) /\ neutral (snd (knots_text U)).
Proof.
  unfold knots_text. cbn [fst snd]. split; apply neutral_bracket; apply Forall_forall; intros t H; apply in_map_iff in H as (x & <- & _); intros d; reflexivity.
Qed.
Lemma neutral_closed t : neutral t -> brackets 0 t = true.
Proof. intros H. rewrite runb_brackets, H. reflexivity. Qed.

(** ** blocks of lines *)
Lemma point_closed x y z : neutral (point_text x y z). Proof. intros d. reflexivity. Qed.
Lemma point_refs x y z : refs (point_text x y z) = []. Proof. reflexivity. Qed.

Definition fine (lo hi : Z) (new : list line) : Prop := Forall (fun l => within lo hi l /\ closed_line l) new.
Lemma fine_app lo hi a b : fine lo hi a -> fine lo hi b -> fine lo hi (a ++ b).
Proof. intros A B. apply Forall_app. split; assumption. Qed.
Lemma fine_weaken lo hi lo' hi' a : lo' <= lo -> hi <= hi' -> fine lo hi a -> fine lo' hi' a.
Proof. intros H1 H2. apply Forall_impl. intros l [W C]. split; [|exact C]. intros r Hr. specialize (W r Hr). lia. Qed.

Lemma curve_points_adds P : forall st ids st', curve_points P st = Ok (ids, st') ->
  exists new, adds st st' new /\ List.length new = List.length P /\ ids = map fst new /\
    Forall2 (fun l q => snd l = point_text (wx q) (wy q) (wz q)) new P.
Proof.
  induction P as [|q P IH]; intros st ids st'; cbn [curve_points].
  - intros [= <- <-]. exists []. split; [apply adds_nil|]. repeat split. constructor.
  - intros E. apply bind_inv in E as ([i s1] & E1 & E). apply bind_inv in E as ([is' s2] & E2 & E). injection E as <- <-.
    apply adds_one in E1 as (-> & A1). destruct (IH _ _ _ E2) as (new & A2 & L & -> & F).
    exists ((fst st, point_text (wx q) (wy q) (wz q)) :: new). split; [exact (adds_app _ _ _ _ _ A1 A2)|]. cbn [List.length map fst]. repeat split; [lia|]. constructor; [reflexivity|exact F].
Qed.
Lemma points_fine lo hi new (P : list vec4) : Forall2 (fun l q => snd l = point_text (wx q) (wy q) (wz q)) new P -> fine lo hi new.
Proof.
  induction 1 as [|l q new P E _ IH]; constructor; [|exact IH]. split; [intros r Hr; rewrite E, point_refs in Hr; destruct Hr|]. unfold closed_line. rewrite E. apply neutral_closed, point_closed.
Qed.

Definition curve_text (c : ncurve) (ids : list Z) : text :=
  let '(mults, knots) := knots_text (nc_knots c) in
  txt "RATIONAL_B_SPLINE_CURVE_WITH_KNOTS('', " ++ Int (Z.of_nat (nc_degree c)) :: txt ", ("
    ++ commas (map (fun id => [Ref id]) ids) ++ txt "), .UNSPECIFIED., .F., .F., "
    ++ mults ++ txt ", " ++ knots ++ txt ", .UNSPECIFIED., " ++ bracket (map (fun q => [Num (ww q)]) (nc_cps c)) ++ txt ")".

Lemma curve_text_refs c ids : refs (curve_text c ids) = ids.
Proof.
  unfold curve_text. destruct (knots_text (nc_knots c)) as [m k] eqn:K. destruct (refs_knots (nc_knots c)) as [Rm Rk]. rewrite K in Rm, Rk. cbn [fst snd] in Rm, Rk.
  rewrite !refs_app. rewrite refs_txt. cbn [app refs]. rewrite !refs_app, refs_commas, flat_refs, !refs_txt, refs_bracket, Rm, Rk, flat_none by reflexivity.
  cbn [app]. rewrite app_nil_r. reflexivity.
Qed.
Lemma ref_neutral ids : Forall neutral (map (fun id => [Ref id]) ids).
Proof. apply Forall_forall. intros t H. apply in_map_iff in H as (x & <- & _). intros d. reflexivity. Qed.
Lemma num_neutral {A} (f : A -> Qc) l : Forall neutral (map (fun q => [Num (f q)]) l).
Proof. apply Forall_forall. intros t H. apply in_map_iff in H as (x & <- & _). intros d. reflexivity. Qed.
Lemma curve_text_closed c ids : brackets 0 (curve_text c ids) = true.
Proof.
  unfold curve_text. destruct (knots_text (nc_knots c)) as [m k] eqn:K. destruct (neutral_knots (nc_knots c)) as [Rm Rk]. rewrite K in Rm, Rk. cbn [fst snd] in Rm, Rk.
  rewrite runb_brackets, runb_app.
  match goal with |- context [runb 0 (txt ?s)] => change (runb 0 (txt s)) with (Some 1%nat) end. cbv beta iota. cbn [runb]. rewrite runb_app.
  match goal with |- context [runb 1 (txt ?s)] => change (runb 1 (txt s)) with (Some 2%nat) end. cbv beta iota. rewrite runb_app, (neutral_commas _ (ref_neutral ids)), runb_app.
  match goal with |- context [runb 2 (txt ?s)] => change (runb 2 (txt s)) with (Some 1%nat) end. cbv beta iota. rewrite runb_app, Rm, runb_app.
  match goal with |- context [runb 1 (txt ", ")] => change (runb 1 (txt ", ")) with (Some 1%nat) end. cbv beta iota. rewrite runb_app, Rk, runb_app.
  match goal with |- context [runb 1 (txt ?s)] => change (runb 1 (txt s)) with (Some 1%nat) end. cbv beta iota.
  rewrite runb_app, (neutral_bracket _ (num_neutral ww (nc_cps c))). reflexivity.
Qed.

(** the lines of one curve *)
Definition curve_block (c : ncurve) (id0 : Z) (new : list line) : Prop :=
  exists pts, new = pts ++ [(id0 + Z.of_nat (List.length pts), curve_text c (map fst pts))] /\
    Forall2 (fun l q => snd l = point_text (wx q) (wy q) (wz q)) pts (nc_cps c) /\ map fst pts = from id0 (List.length pts).

Lemma nc_step_adds c st i st' : nc_step c st = Ok (i, st') ->
  exists new, adds st st' new /\ i = fst st + Z.of_nat (List.length (nc_cps c)) /\ curve_block c (fst st) new /\ List.length new = S (List.length (nc_cps c)).
Proof.
  intros E. unfold nc_step in E. apply bind_inv in E as ([ids s1] & E1 & E). destruct (curve_points_adds _ _ _ _ E1) as (pts & A1 & L & -> & F).
  destruct (knots_text (nc_knots c)) as [m k] eqn:K. apply adds_one in E as (-> & A2).
  assert (fst s1 = fst st + Z.of_nat (List.length pts)) as EF by (destruct A1 as [-> _]; reflexivity).
  exists (pts ++ [(fst s1, curve_text c (map fst pts))]).
  assert (curve_text c (map fst pts) = txt "RATIONAL_B_SPLINE_CURVE_WITH_KNOTS('', " ++ Int (Z.of_nat (nc_degree c)) :: txt ", ("
    ++ commas (map (fun id => [Ref id]) (map fst pts)) ++ txt "), .UNSPECIFIED., .F., .F., "
    ++ m ++ txt ", " ++ k ++ txt ", .UNSPECIFIED., " ++ bracket (map (fun q => [Num (ww q)]) (nc_cps c)) ++ txt ")") as ET by (unfold curve_text; rewrite K; reflexivity).
  rewrite ET. split; [exact (adds_app _ _ _ _ _ A1 A2)|]. split; [rewrite EF; lia|]. split; [|rewrite app_length; cbn; lia].
  exists pts. rewrite <- ET, EF. split; [reflexivity|]. split; [exact F|]. destruct A1 as [_ A1]. exact A1.
Qed.
Lemma curve_block_fine c id0 new : curve_block c id0 new -> fine id0 (id0 + Z.of_nat (List.length new)) new.
Proof.
  intros (pts & -> & F & M). apply fine_app; [eapply points_fine; exact F|]. constructor; [|constructor]. split; [|apply curve_text_closed].
  intros r Hr. cbn [snd] in Hr. rewrite curve_text_refs, M, in_from in Hr. rewrite app_length. cbn [List.length]. lia.
Qed.
