(** The bounded scalar minimiser. *)
From Coq Require Import List ZArith QArith Qcanon Bool Lia Lqa Field.
From Verif Require Import Base BaseFacts ModelNumeric SpecNumeric ProofIntegrate.
Import ListNotations.
Open Scope Qc_scope.

Lemma golden_range : 0 < golden_mean /\ golden_mean < 1. Proof. split; vm_compute; reflexivity. Qed.
Lemma sqrt_eps_pos : 0 < sqrt_eps. Proof. vm_compute. reflexivity. Qed.

Lemma Qcabs_cases a : (0 <= a /\ Qcabs a = a) \/ (a < 0 /\ Qcabs a = - a).
Proof. unfold Qcabs. destruct (Qcltb_spec a 0); [right|left]; split; auto. qc_lra. Qed.
Lemma copysign_cases z x : (copysign1 z x = 1 /\ 0 <= x) \/ (copysign1 z x = - (1) /\ x <= 0).
Proof.
  unfold copysign1. destruct (Qcltb_spec x 0); [right; split; [reflexivity|qc_lra]|].
  destruct (Qcltb_spec 0 x); [left; split; [reflexivity|qc_lra]|]. destruct z; [left|right]; split; try reflexivity; qc_lra.
Qed.
Lemma Qcmul_nonneg (a b : Qc) : 0 <= a -> 0 <= b -> 0 <= a * b.
Proof. intros A B. qc_nra. Qed.
Lemma Qcmul_pos (a b : Qc) : 0 < a -> 0 < b -> 0 < a * b.
Proof. intros A B. qc_nra. Qed.
Lemma Qcdiv_pos_lt (p q l : Qc) : 0 < q -> q * l < p -> l < p / q.
Proof.
  intros Q H. assert (q <> 0) as NZ by (intros ->; revert Q; vm_compute; discriminate).
  destruct (Qcltb_spec l (p / q)) as [|N]; [assumption|exfalso]. apply Qcnot_lt_le in N.
  assert (p = p / q * q) as E by (field; assumption). assert (0 <= (l - p / q) * q) by (apply Qcmul_nonneg; qc_lra).
  rewrite E in H. generalize dependent (p / q). intros x. intros. qc_nra.
Qed.
Lemma Qcdiv_lt_pos (p q l : Qc) : 0 < q -> p < q * l -> p / q < l.
Proof.
  intros Q H. assert (q <> 0) as NZ by (intros ->; revert Q; vm_compute; discriminate).
  destruct (Qcltb_spec (p / q) l) as [|N]; [assumption|exfalso]. apply Qcnot_lt_le in N.
  assert (p = p / q * q) as E by (field; assumption). assert (0 <= (p / q - l) * q) by (apply Qcmul_nonneg; qc_lra).
  rewrite E in H. generalize dependent (p / q). intros x. intros. qc_nra.
Qed.

(** what the bracket and the current best point satisfy *)
Definition bracket (s : mstate) : Prop :=
  ms_a s <= ms_xf s /\ ms_xf s <= ms_b s /\ ms_xm s = qc 1 2 * (ms_a s + ms_b s) /\ 0 <= ms_tol1 s /\ ms_tol2 s = qc 2 1 * ms_tol1 s.

Lemma continue_room s : bracket s -> ms_continue s = true ->
  (ms_xm s <= ms_xf s -> qc 2 1 * ms_tol1 s < ms_xf s - ms_a s) /\ (ms_xf s <= ms_xm s -> qc 2 1 * ms_tol1 s < ms_b s - ms_xf s).
Proof.
  intros (A & B & C & D & E) H. unfold ms_continue in H. qcb. rewrite E in H.
  destruct (Qcabs_cases (ms_xf s - ms_xm s)) as [[F G]|[F G]]; rewrite G in H; rewrite C in *; split; intros I; qc_lra.
Qed.

Lemma next_point (a b xf rat tol1 : Qc) z : a <= xf -> xf <= b -> 0 <= tol1 ->
  a <= xf + rat -> xf + rat <= b ->
  (rat <= 0 -> a <= xf - tol1) -> (0 <= rat -> xf + tol1 <= b) ->
  let x := xf + copysign1 z rat * Qcmax (Qcabs rat) tol1 in a <= x /\ x <= b.
Proof.
  intros A B T R1 R2 L R x. unfold x. clear x.
  destruct (copysign_cases z rat) as [[E H]|[E H]]; rewrite E.
  - specialize (R H). unfold Qcmax. destruct (Qcabs_cases rat) as [[F G]|[F G]]; rewrite G; [|exfalso; qc_lra].
    (match goal with |- context[if ?c then _ else _] => destruct c eqn:?HC; qcb end); split; qc_lra.
  - specialize (L H). unfold Qcmax. destruct (Qcabs_cases rat) as [[F G]|[F G]]; rewrite G.
    + assert (rat = 0) as -> by (apply Qcle_antisym; assumption). (match goal with |- context[if ?c then _ else _] => destruct c eqn:?HC; qcb end); split; qc_lra.
    + (match goal with |- context[if ?c then _ else _] => destruct c eqn:?HC; qcb end); split; qc_lra.
Qed.

Lemma step_ok s z1 z2 : bracket s -> ms_continue s = true ->
  let rat := fst (ms_step z1 s) in
  let x := ms_xf s + copysign1 z2 rat * Qcmax (Qcabs rat) (ms_tol1 s) in ms_a s <= x /\ x <= ms_b s.
Proof.
  intros Br Hc. destruct (continue_room s Br Hc) as (RL & RR). destruct s as [a b fulc nfc xf rat0 e fx num ffulc fnfc xm tol1 tol2 calls].
  unfold bracket in Br. cbn [ms_a ms_b ms_xf ms_xm ms_tol1 ms_tol2] in *. destruct Br as (A & B & C & D & E).
  cbv zeta. 
  assert (forall r, r = golden_mean * (if xm <=? xf then a - xf else b - xf) ->
    a <= xf + copysign1 z2 r * Qcmax (Qcabs r) tol1 /\ xf + copysign1 z2 r * Qcmax (Qcabs r) tol1 <= b) as GOLD.
  { intros r Hr. destruct golden_range as (G1 & G2). destruct (Qcleb_spec xm xf) as [H|H].
    - specialize (RL H). assert (r <= 0) as R1. { assert (0 <= golden_mean * (xf - a)) by (apply Qcmul_nonneg; qc_lra). qc_lra. }
      assert (a - xf <= r) as R2. { assert (0 <= (1 - golden_mean) * (xf - a)) by (apply Qcmul_nonneg; qc_lra). qc_lra. }
      destruct (Qceqb_spec r 0) as [R0|R0].
      + exfalso. assert (0 < golden_mean * (xf - a)) by (apply Qcmul_pos; qc_lra). qc_lra.
      + assert (~ 0 <= r) by (intros F; apply R0, Qcle_antisym; assumption). apply next_point; try assumption; try qc_lra; intros; try contradiction; qc_lra.
    - apply Qcnot_le_lt in H. specialize (RR (Qclt_le_weak _ _ H)).
      assert (0 <= r) as R1. { rewrite Hr. apply Qcmul_nonneg; qc_lra. }
      assert (r <= b - xf) as R2. { assert (0 <= (1 - golden_mean) * (b - xf)) by (apply Qcmul_nonneg; qc_lra). qc_lra. }
      destruct (Qceqb_spec r 0) as [R0|R0].
      + exfalso. assert (0 < golden_mean * (b - xf)) by (apply Qcmul_pos; qc_lra). qc_lra.
      + assert (~ r <= 0) by (intros F; apply R0, Qcle_antisym; assumption). apply next_point; try assumption; try qc_lra; intros; try contradiction; qc_lra. }
  unfold ms_step. cbv zeta. destruct (tol1 <? Qcabs e); [|apply GOLD; reflexivity].
  set (r := (xf - nfc) * (fx - ffulc)). set (q0 := (xf - fulc) * (fx - fnfc)).
  set (p0 := (xf - fulc) * q0 - (xf - nfc) * r). set (q1 := qc 2 1 * (q0 - r)). set (p := if 0 <? q1 then - p0 else p0). set (q := Qcabs q1).
  destruct ((Qcabs p <? Qcabs (qc 1 2 * q * e)) && (q * (a - xf) <? p) && (p <? q * (b - xf))) eqn:PC; [|apply GOLD; reflexivity].
  rewrite !andb_true_iff in PC. destruct PC as ((P1 & P2) & P3). qcb.
  assert (0 < q) as QP.
  { pose proof (Qcabs_nonneg q1) as Q0. fold q in Q0. destruct (Qceqb_spec q 0) as [Z|Z]; [|destruct (Qc_neq_or _ _ Z); [exfalso; qc_lra|assumption]].
    exfalso. rewrite Z in P1. replace (qc 1 2 * 0 * e) with 0 in P1 by ring. rewrite Qcabs_0 in P1. pose proof (Qcabs_nonneg p). qc_lra. }
  pose proof (Qcdiv_pos_lt _ _ _ QP P2) as L. pose proof (Qcdiv_lt_pos _ _ _ QP P3) as U.
  clear - A B C D E RL RR L U. set (rt := p / q) in *. clearbody rt. clear p q p0 q0 q1 r.
  destruct ((xf + rt - a <? tol2) || (b - (xf + rt) <? tol2)) eqn:ED; cbn [fst].
  - set (si := copysign1 z1 (xm - xf)). destruct (copysign_cases z1 (xm - xf)) as [[F G]|[F G]]; fold si in F; rewrite F.
    + specialize (RR ltac:(qc_lra)). apply next_point; try assumption; try qc_lra; intros H; qc_lra.
    + specialize (RL ltac:(qc_lra)). apply next_point; try assumption; try qc_lra; intros H; qc_lra.
  - apply orb_false_elim in ED. destruct ED as (E1 & E2). qcb. rewrite E in *.
    apply next_point; try assumption; try qc_lra; intros H; qc_lra.
Qed.

Lemma Qcabs_eq0 a : Qcabs a = 0 -> a = 0.
Proof. intros H. destruct (Qcabs_cases a) as [[F G]|[F G]]; rewrite G in H; qc_lra. Qed.

Section Loop.
Variables (f : Qc -> Qc) (x1 x2 xatol : Qc).
Hypothesis Hb : x1 <= x2.
Hypothesis Ht : 0 <= xatol.

Record inv (s : mstate) : Prop := Inv {
  i_br : bracket s; i_lo : x1 <= ms_a s; i_hi : ms_b s <= x2; i_fx : ms_fx s = f (ms_xf s);
  i_in : In (ms_xf s) (ms_calls s); i_num : ms_num s = length (ms_calls s);
  i_best : forall x, In x (ms_calls s) -> ms_fx s <= f x; i_calls : forall x, In x (ms_calls s) -> x1 <= x /\ x <= x2;
  i_tol : ms_tol1 s = sqrt_eps * Qcabs (ms_xf s) + xatol / qc 3 1 }.

Lemma tol_nonneg x : 0 <= sqrt_eps * Qcabs x + xatol / qc 3 1.
Proof.
  assert (0 <= sqrt_eps * Qcabs x) by (apply Qcmul_nonneg; [apply Qclt_le_weak, sqrt_eps_pos|apply Qcabs_nonneg]).
  replace (xatol / qc 3 1) with (qc 1 3 * xatol) by qfield. qc_lra.
Qed.
Lemma tol_pos x : 0 < xatol -> 0 < sqrt_eps * Qcabs x + xatol / qc 3 1.
Proof.
  intros P. assert (0 <= sqrt_eps * Qcabs x) by (apply Qcmul_nonneg; [apply Qclt_le_weak, sqrt_eps_pos|apply Qcabs_nonneg]).
  replace (xatol / qc 3 1) with (qc 1 3 * xatol) by qfield. qc_lra.
Qed.

Lemma init_inv : inv (ms_init f x1 x2 xatol).
Proof.
  destruct golden_range as (G1 & G2). unfold ms_init. cbv zeta. set (y := x1 + golden_mean * (x2 - x1)).
  assert (x1 <= y /\ y <= x2) as [Y1 Y2].
  { assert (0 <= golden_mean * (x2 - x1)) by (apply Qcmul_nonneg; qc_lra).
    assert (0 <= (1 - golden_mean) * (x2 - x1)) by (apply Qcmul_nonneg; qc_lra). unfold y. split; qc_lra. }
  constructor; cbn; try reflexivity; try apply Qcle_refl; auto.
  - unfold bracket; cbn. split; [exact Y1|]. split; [exact Y2|]. split; [reflexivity|]. split; [apply tol_nonneg|reflexivity].
  - intros x [<-|[]]. apply Qcle_refl.
  - intros x [<-|[]]. auto.
Qed.

Lemma body_shape z1 z2 s : let x := ms_xf s + copysign1 z2 (fst (ms_step z1 s)) * Qcmax (Qcabs (fst (ms_step z1 s))) (ms_tol1 s) in
  let s' := ms_body f xatol z1 z2 s in
  ms_num s' = S (ms_num s) /\ ms_calls s' = x :: ms_calls s /\ ms_xm s' = qc 1 2 * (ms_a s' + ms_b s') /\
  ms_tol1 s' = sqrt_eps * Qcabs (ms_xf s') + xatol / qc 3 1 /\ ms_tol2 s' = qc 2 1 * ms_tol1 s' /\
  ((f x <= ms_fx s /\ ms_xf s' = x /\ ms_fx s' = f x /\
     ((ms_xf s <= x /\ ms_a s' = ms_xf s /\ ms_b s' = ms_b s) \/ (x < ms_xf s /\ ms_a s' = ms_a s /\ ms_b s' = ms_xf s))) \/
   (ms_fx s < f x /\ ms_xf s' = ms_xf s /\ ms_fx s' = ms_fx s /\
     ((x < ms_xf s /\ ms_a s' = x /\ ms_b s' = ms_b s) \/ (ms_xf s <= x /\ ms_a s' = ms_a s /\ ms_b s' = x)))).
Proof.
  intros x s'. unfold s', ms_body. destruct s as [a b fulc nfc xf rat0 e fx num ffulc fnfc xm tol1 tol2 calls].
  cbn [ms_xf ms_tol1 ms_fx ms_num ms_calls ms_a ms_b] in *. destruct (ms_step z1 _) as [rat e']. cbn [fst] in x. fold x.
  destruct (Qcleb_spec (f x) fx) as [H1|H1]; [destruct (Qcleb_spec xf x) as [H2|H2]|apply Qcnot_le_lt in H1; destruct (Qcltb_spec x xf) as [H2|H2];
    [|apply Qcnot_lt_le in H2]; destruct ((f x <=? fnfc) || (nfc =? xf)); [|destruct ((f x <=? ffulc) || (fulc =? xf) || (fulc =? nfc))| |destruct ((f x <=? ffulc) || (fulc =? xf) || (fulc =? nfc))]];
    cbn; do 5 (split; [reflexivity|]).
  - left. auto 10.
  - left. apply Qcnot_le_lt in H2. auto 10.
  - right. auto 10.
  - right. auto 10.
  - right. auto 10.
  - right. auto 10.
  - right. auto 10.
  - right. auto 10.
Qed.

Lemma body_inv z1 z2 s : inv s -> ms_continue s = true -> inv (ms_body f xatol z1 z2 s).
Proof.
  intros [Br Lo Hi Fx Xin Num Best Calls Tol] Hc. pose proof (step_ok s z1 z2 Br Hc) as (X1 & X2). 
  destruct (body_shape z1 z2 s) as (B1 & B2 & B3 & B4 & B5 & B6).
  set (s' := ms_body f xatol z1 z2 s) in *. set (x := ms_xf s + _) in *. clearbody s' x.
  destruct Br as (A & B & C & D & E).
  assert (0 <= ms_tol1 s') as T' by (rewrite B4; apply tol_nonneg).
  destruct B6 as [(K1 & K2 & K3 & K4)|(K1 & K2 & K3 & K4)].
  - assert (ms_a s <= ms_a s' /\ ms_a s' <= ms_xf s' /\ ms_xf s' <= ms_b s' /\ ms_b s' <= ms_b s) as (Q1 & Q2 & Q3 & Q4).
    { destruct K4 as [(U & V & W)|(U & V & W)]; rewrite K2, V, W; repeat split; qc_lra. }
    constructor.
    + unfold bracket. auto 10.
    + qc_lra.
    + qc_lra.
    + rewrite K3, K2. reflexivity.
    + rewrite B2, K2. left. reflexivity.
    + rewrite B1, B2, Num. reflexivity.
    + rewrite B2, K3. intros y [<-|Hy]; [apply Qcle_refl|]. eapply Qcle_trans; [exact K1|apply Best; assumption].
    + rewrite B2. intros y [<-|Hy]; [split; qc_lra|apply Calls; assumption].
    + exact B4.
  - assert (ms_a s <= ms_a s' /\ ms_a s' <= ms_xf s' /\ ms_xf s' <= ms_b s' /\ ms_b s' <= ms_b s) as (Q1 & Q2 & Q3 & Q4).
    { destruct K4 as [(U & V & W)|(U & V & W)]; rewrite K2, V, W; repeat split; qc_lra. }
    constructor.
    + unfold bracket. auto 10.
    + qc_lra.
    + qc_lra.
    + rewrite K3, K2. exact Fx.
    + rewrite B2, K2. right. exact Xin.
    + rewrite B1, B2, Num. reflexivity.
    + rewrite B2, K3. intros y [<-|Hy]; [apply Qclt_le_weak; assumption|apply Best; assumption].
    + rewrite B2. intros y [<-|Hy]; [split; qc_lra|apply Calls; assumption].
    + exact B4.
Qed.

(** the loop keeps the invariant, and any further invariant of the body *)
Lemma loop_inv (J : mstate -> Prop) maxfun zs :
  (forall z1 z2 s, inv s -> ms_continue s = true -> J s -> J (ms_body f xatol z1 z2 s)) ->
  forall fuel s s' flag, inv s -> J s -> (maxfun <= Z.of_nat fuel + Z.of_nat (ms_num s) + 1)%Z ->
  ms_loop fuel f xatol maxfun zs s = (s', flag) ->
  inv s' /\ J s' /\ (flag = 0%nat /\ ms_continue s' = false \/ flag = 1%nat /\ (maxfun <= Z.of_nat (ms_num s'))%Z) /\
  (Z.of_nat (ms_num s') <= Z.max maxfun (Z.of_nat (ms_num s) + 1))%Z.
Proof.
  intros HJ. induction fuel; intros s s' flag Is Js Hf E; cbn [ms_loop] in E; destruct (ms_continue s) eqn:Hc; cbn [negb] in E;
    try (injection E as <- <-; split; [assumption|]; split; [assumption|]; split; [left; auto|lia]).
  - set (t := ms_body _ _ _ _ _) in *. destruct (body_shape (fst (zs (ms_num s))) (snd (zs (ms_num s))) s) as (BN & _). fold t in BN.
    destruct (Z.leb_spec maxfun (Z.of_nat (ms_num t))); [|lia].
    injection E as <- <-. split; [apply body_inv; assumption|]. split; [apply HJ; assumption|]. split; [right; auto|lia].
  - set (t := ms_body _ _ _ _ _) in *. destruct (body_shape (fst (zs (ms_num s))) (snd (zs (ms_num s))) s) as (BN & _). fold t in BN.
    destruct (Z.leb_spec maxfun (Z.of_nat (ms_num t))).
    + injection E as <- <-. split; [apply body_inv; assumption|]. split; [apply HJ; assumption|]. split; [right; auto|lia].
    + destruct (IHfuel t s' flag) as (Q1 & Q2 & Q3 & Q4); [apply body_inv; assumption|apply HJ; assumption|lia|exact E|].
      split; [assumption|]. split; [assumption|]. split; [assumption|lia].
Qed.

Lemma run_inv (J : mstate -> Prop) maxiter zs :
  (forall z1 z2 s, inv s -> ms_continue s = true -> J s -> J (ms_body f xatol z1 z2 s)) -> J (ms_init f x1 x2 xatol) ->
  exists s flag, minimize_scalar_bounded f x1 x2 xatol maxiter zs =
    Ok (OR (ms_fx s) (ms_xf s) flag (Nat.eqb flag 0) (ms_num s) (ms_num s), ms_calls s) /\ inv s /\ J s /\
    (flag = 0%nat /\ ms_continue s = false \/ flag = 1%nat /\ (maxiter <= Z.of_nat (ms_num s))%Z) /\
    (Z.of_nat (ms_num s) <= Z.max maxiter 2)%Z.
Proof.
  intros HJ J0. unfold minimize_scalar_bounded. assert ((x2 <? x1) = false) as -> by (qcb; assumption).
  destruct (ms_loop _ _ _ _ _ _) as [s flag] eqn:E.
  assert (maxiter <= Z.of_nat (Z.to_nat maxiter) + Z.of_nat (ms_num (ms_init f x1 x2 xatol)) + 1)%Z as HF
    by (change (ms_num (ms_init f x1 x2 xatol)) with 1%nat; lia).
  destruct (loop_inv J maxiter zs HJ _ _ _ _ init_inv J0 HF E) as (A & B & C & D).
  change (ms_num (ms_init f x1 x2 xatol)) with 1%nat in D.
  exists s, flag. split; [reflexivity|]. auto.
Qed.
End Loop.

Lemma minimize_top : forall f x1 x2 xatol maxiter zs, x1 <= x2 -> 0 <= xatol ->
  exists r calls, minimize_scalar_bounded f x1 x2 xatol maxiter zs = Ok (r, calls) /\
    (x1 <= or_x r /\ or_x r <= x2) /\ (forall x, In x calls -> x1 <= x /\ x <= x2) /\
    In (or_x r) calls /\ or_fun r = f (or_x r) /\ (forall x, In x calls -> or_fun r <= f x) /\
    or_nfev r = length calls /\ or_nit r = length calls /\ (Z.of_nat (length calls) <= Z.max maxiter 2)%Z /\
    (or_success r = true <-> or_status r = 0%nat) /\ (or_status r = 0%nat \/ or_status r = 1%nat) /\
    (or_status r = 1%nat -> (maxiter <= Z.of_nat (length calls))%Z).
Proof.
  intros f x1 x2 xatol maxiter zs Hb Ht.
  destruct (run_inv f x1 x2 xatol Hb Ht (fun _ => True) maxiter zs) as (s & flag & E & I & _ & F & N); auto.
  exists (OR (ms_fx s) (ms_xf s) flag (Nat.eqb flag 0) (ms_num s) (ms_num s)), (ms_calls s). destruct I as [Br Lo Hi Fx Xin Num Best Calls Tol].
  cbn [or_fun or_x or_status or_success or_nfev or_nit]. split; [exact E|].
  split; [apply Calls; assumption|]. split; [exact Calls|]. split; [exact Xin|]. split; [exact Fx|]. split; [exact Best|].
  split; [exact Num|]. split; [exact Num|]. rewrite <- Num. split; [exact N|]. split; [apply Nat.eqb_eq|].
  split; destruct F as [(F & G)|(F & G)]; auto. intros H. rewrite F in H. discriminate.
Qed.

Lemma minimize_bounds_top : forall f x1 x2 xatol maxiter zs, x1 <= x2 -> 0 <= xatol ->
  exists r calls, minimize_scalar_bounded f x1 x2 xatol maxiter zs = Ok (r, calls) /\
    (x1 <= or_x r /\ or_x r <= x2) /\ (forall x, In x calls -> x1 <= x /\ x <= x2).
Proof.
  intros f x1 x2 xatol maxiter zs H1 H2. destruct (minimize_top f x1 x2 xatol maxiter zs H1 H2) as (r & calls & E & A & B & _). exists r, calls. auto.
Qed.
Lemma minimize_best_top : forall f x1 x2 xatol maxiter zs, x1 <= x2 -> 0 <= xatol ->
  exists r calls, minimize_scalar_bounded f x1 x2 xatol maxiter zs = Ok (r, calls) /\
    In (or_x r) calls /\ or_fun r = f (or_x r) /\ (forall x, In x calls -> or_fun r <= f x) /\
    or_nfev r = length calls /\ or_nit r = length calls /\ (Z.of_nat (length calls) <= Z.max maxiter 2)%Z /\
    (or_success r = true <-> or_status r = 0%nat) /\ (or_status r = 0%nat \/ or_status r = 1%nat) /\
    (or_status r = 1%nat -> (maxiter <= Z.of_nat (length calls))%Z).
Proof.
  intros f x1 x2 xatol maxiter zs H1 H2. destruct (minimize_top f x1 x2 xatol maxiter zs H1 H2) as (r & calls & E & _ & _ & B). exists r, calls. auto.
Qed.

Lemma minimize_throws : forall f x1 x2 xatol maxiter zs, x2 < x1 ->
  minimize_scalar_bounded f x1 x2 xatol maxiter zs = Throw EInvalidArgument.
Proof. intros. unfold minimize_scalar_bounded. assert ((x2 <? x1) = true) as -> by (qcb; assumption). reflexivity. Qed.

Lemma unimodal_top : forall f x1 x2 xs xatol maxiter zs r calls, unimodal f x1 x2 xs -> 0 < xatol ->
  minimize_scalar_bounded f x1 x2 xatol maxiter zs = Ok (r, calls) -> or_success r = true ->
  Qcabs (or_x r - xs) <= qc 2 1 * (sqrt_eps * Qcabs (or_x r) + xatol / qc 3 1).
Proof.
  intros f x1 x2 xs xatol maxiter zs r calls (U1 & U2 & UD & UI) HT E OK.
  assert (x1 <= x2) as Hb by qc_lra.
  destruct (run_inv f x1 x2 xatol Hb (Qclt_le_weak _ _ HT) (fun s => ms_a s <= xs /\ xs <= ms_b s) maxiter zs) as (s & flag & E' & I & (J1 & J2) & F & N).
  - intros z1 z2 s [Br Lo Hi Fx Xin Num Best Calls Tol] Hc (J1 & J2).
    pose proof (step_ok s z1 z2 Br Hc) as (X1 & X2). destruct (body_shape f xatol z1 z2 s) as (_ & _ & _ & _ & _ & B6).
    assert (ms_xf s + copysign1 z2 (fst (ms_step z1 s)) * Qcmax (Qcabs (fst (ms_step z1 s))) (ms_tol1 s) <> ms_xf s) as NX.
    { assert (0 < ms_tol1 s) as TP by (rewrite Tol; apply tol_pos; assumption).
      assert (ms_tol1 s <= Qcmax (Qcabs (fst (ms_step z1 s))) (ms_tol1 s)) as MX by (unfold Qcmax; destruct (Qcltb_spec (Qcabs (fst (ms_step z1 s))) (ms_tol1 s)) as [?|HN]; [apply Qcle_refl|apply Qcnot_lt_le in HN; exact HN]).
      set (mx := Qcmax _ _) in *. clearbody mx. destruct (copysign_cases z2 (fst (ms_step z1 s))) as [[-> _]|[-> _]]; intros H; qc_lra. }
    set (s' := ms_body f xatol z1 z2 s) in *. set (x := ms_xf s + _) in *. clearbody s' x. destruct Br as (A & B & _).
    rewrite Fx in B6. destruct B6 as [(K1 & K2 & K3 & [(K4 & -> & ->)|(K4 & -> & ->)])|(K1 & K2 & K3 & [(K4 & -> & ->)|(K4 & -> & ->)])]; split; try assumption.
    + destruct (Qcleb_spec (ms_xf s) xs) as [|H]; [assumption|exfalso]. apply Qcnot_le_lt in H.
      assert (ms_xf s < x) as L. { destruct (Qcltb_spec (ms_xf s) x); [assumption|]. exfalso. apply NX. apply Qcle_antisym; qc_lra. }
      specialize (UI (ms_xf s) x (Qclt_le_weak _ _ H) L ltac:(qc_lra)). clear - UI K1. qc_lra.
    + destruct (Qcleb_spec xs (ms_xf s)) as [|H]; [assumption|exfalso]. apply Qcnot_le_lt in H.
      specialize (UD x (ms_xf s) ltac:(qc_lra) K4 (Qclt_le_weak _ _ H)). clear - UD K1. qc_lra.
    + destruct (Qcleb_spec x xs) as [|H]; [assumption|exfalso]. apply Qcnot_le_lt in H.
      specialize (UI x (ms_xf s) (Qclt_le_weak _ _ H) K4 ltac:(qc_lra)). clear - UI K1. qc_lra.
    + destruct (Qcleb_spec xs x) as [|H]; [assumption|exfalso]. apply Qcnot_le_lt in H.
      assert (ms_xf s < x) as L. { destruct (Qcltb_spec (ms_xf s) x); [assumption|]. exfalso. apply NX. apply Qcle_antisym; qc_lra. }
      specialize (UD (ms_xf s) x ltac:(qc_lra) L (Qclt_le_weak _ _ H)). clear - UD K1. qc_lra.
  - cbn. auto.
  - rewrite E in E'. injection E' as -> ->. cbn [or_success or_x] in *. apply Nat.eqb_eq in OK. destruct F as [(_ & F)|(F & _)]; [|congruence].
    destruct I as [(A & B & C & D & T2) Lo Hi Fx Xin Num Best Calls Tol]. unfold ms_continue in F. qcb. rewrite T2, Tol in F.
    destruct (Qcabs_cases (ms_xf s - xs)) as [[F1 ->]|[F1 ->]]; destruct (Qcabs_cases (ms_xf s - ms_xm s)) as [[F2 F3]|[F2 F3]]; rewrite F3 in F; rewrite C in *;
      set (tt := sqrt_eps * _ + _) in *; clearbody tt; clear - F F1 F2 J1 J2 A B; qc_lra.
Qed.
