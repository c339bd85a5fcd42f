(** WGroup.v -- the curve y^2 = x^3 + b over a field of characteristic other than 2, without a point of order two: the chord and
    tangent law gives an abelian group.  Pure mathematics; the Go code that computes it is modelled in SecpCurve.v. *)
From Coq Require Import ZArith Ring Field Setoid Morphisms Eqdep_dec List.
Import ListNotations.

Section W.
  Variable F : Type.
  Variables (f0 f1 : F) (add mul sub : F -> F -> F) (opp : F -> F) (div : F -> F -> F) (inv : F -> F).
  Hypothesis FT : field_theory f0 f1 add mul sub opp div inv (@eq F).
  Hypothesis ID : forall x y, mul x y = f0 -> x = f0 \/ y = f0.
  Hypothesis DEC : forall x y : F, {x = y} + {x <> y}.
  Add Field Ff : FT.
  Declare Scope w_scope. Delimit Scope w_scope with w. Open Scope w_scope.
  Notation "0" := f0 : w_scope. Notation "1" := f1 : w_scope. Infix "+" := add : w_scope. Infix "*" := mul : w_scope.
  Infix "-" := sub : w_scope. Infix "/" := div : w_scope. Notation "- x" := (opp x) : w_scope.
  Notation "2" := (1 + 1) : w_scope. Notation "3" := (1 + 1 + 1) : w_scope.
  Variable b : F.
  Hypothesis TWO : 2 <> 0.
  Definition on (x y : F) : Prop := y * y = x * x * x + b.
  Hypothesis NT : forall x y, on x y -> y <> 0.

  Lemma sub_0 x y : x - y = 0 -> x = y.
  Proof. intro H. assert (E : x = (x - y) + y) by ring. rewrite E, H. ring. Qed.
  Lemma sub_nz x y : x <> y -> x - y <> 0. Proof. intros H E. apply H, sub_0, E. Qed.
  Lemma mul_nz x y : x <> 0 -> y <> 0 -> x * y <> 0. Proof. intros A B H. destruct (ID _ _ H); auto. Qed.
  Lemma mul_cancel c x y : c <> 0 -> c * x = c * y -> x = y.
  Proof. intros A H. apply sub_0. destruct (ID c (x - y)) as [X|X]; [|contradiction|exact X]. assert (E : c * (x - y) = c * x - c * y) by ring. rewrite E, H. ring. Qed.
  Lemma opp_eq y : y = - y -> y = 0.
  Proof. intro H. apply (mul_cancel 2); [exact TWO|]. transitivity (y + y); [ring|]. rewrite H at 2. ring. Qed.

  Definition pt : Type := option (F * F).
  Definition onp (P : pt) : Prop := match P with None => True | Some (x, y) => on x y end.
  Definition line (l x1 y1 x2 : F) : pt := let x3 := l * l - x1 - x2 in Some (x3, l * (x1 - x3) - y1).
  (** the group law *)
  Definition wadd (P Q : pt) : pt :=
    match P, Q with
    | None, _ => Q
    | _, None => P
    | Some (x1, y1), Some (x2, y2) =>
      if DEC x1 x2 then
        if DEC y1 y2 then (if DEC y1 0 then None else line (3 * (x1 * x1) / (2 * y1)) x1 y1 x2) else None
      else line ((y2 - y1) / (x2 - x1)) x1 y1 x2
    end.
  Definition wneg (P : pt) : pt := match P with None => None | Some (x, y) => Some (x, - y) end.

  (** l is the slope of the chord or tangent *)
  Definition sl (l x1 y1 x2 y2 : F) : Prop := l * (x2 - x1) = y2 - y1 /\ l * (y1 + y2) = x1 * x1 + x1 * x2 + x2 * x2.
  Definition opps (x1 y1 x2 y2 : F) : Prop := x1 = x2 /\ y1 = - y2.
  Lemma opps_dec x1 y1 x2 y2 : opps x1 y1 x2 y2 \/ ~ opps x1 y1 x2 y2.
  Proof. destruct (DEC x1 x2), (DEC y1 (- y2)); unfold opps; tauto. Qed.
  Lemma same_x x1 y1 x2 y2 : on x1 y1 -> on x2 y2 -> x1 = x2 -> y1 = y2 \/ y1 = - y2.
  Proof.
    unfold on. intros A B <-. destruct (ID (y1 - y2) (y1 + y2)) as [E|E].
    - transitivity (y1 * y1 - y2 * y2); [ring|]. rewrite A, B. ring.
    - left. apply sub_0, E.
    - right. apply sub_0. rewrite <- E. ring.
  Qed.
  Lemma ex_sl x1 y1 x2 y2 : on x1 y1 -> on x2 y2 -> ~ opps x1 y1 x2 y2 -> exists l, sl l x1 y1 x2 y2 /\ wadd (Some (x1, y1)) (Some (x2, y2)) = line l x1 y1 x2.
  Proof.
    intros A B N. cbn [wadd]. destruct (DEC x1 x2) as [E|E].
    - destruct (same_x _ _ _ _ A B E) as [Y|Y]; [|destruct N; split; auto]. subst x2 y2. destruct (DEC y1 y1) as [_|C]; [|congruence].
      destruct (DEC y1 0) as [Z|Z]; [destruct (NT _ _ A Z)|]. eexists. split; [|reflexivity]. split; field; repeat split; auto.
    - assert (D : x2 - x1 <> 0) by (apply sub_nz; congruence). eexists. split; [|reflexivity]. split; [field; exact D|].
      assert (X : (y2 - y1) / (x2 - x1) * (y1 + y2) = (y2 * y2 - y1 * y1) / (x2 - x1)) by (field; exact D). rewrite X. unfold on in A, B. rewrite A, B. field. exact D.
  Qed.
  Lemma sl_unique l l' x1 y1 x2 y2 : on x1 y1 -> on x2 y2 -> ~ opps x1 y1 x2 y2 -> sl l x1 y1 x2 y2 -> sl l' x1 y1 x2 y2 -> l = l'.
  Proof.
    intros A B N [L1 L2] [M1 M2]. destruct (DEC x1 x2) as [E|E].
    - destruct (same_x _ _ _ _ A B E) as [Y|Y]; [|destruct N; split; auto]. subst x2 y2. apply (mul_cancel (y1 + y1)).
      + intro Z. apply (NT _ _ A). apply (mul_cancel 2); [exact TWO|]. transitivity (y1 + y1); [ring|]. rewrite Z. ring.
      + transitivity (l * (y1 + y1)); [ring|]. rewrite L2, <- M2. ring.
    - apply (mul_cancel (x2 - x1)); [apply sub_nz; congruence|]. transitivity (l * (x2 - x1)); [ring|]. rewrite L1, <- M1. ring.
  Qed.
  Lemma add_sl l x1 y1 x2 y2 : on x1 y1 -> on x2 y2 -> ~ opps x1 y1 x2 y2 -> sl l x1 y1 x2 y2 -> wadd (Some (x1, y1)) (Some (x2, y2)) = line l x1 y1 x2.
  Proof. intros A B N S. destruct (ex_sl _ _ _ _ A B N) as (l' & S' & E). rewrite E. now rewrite (sl_unique l l' x1 y1 x2 y2 A B N S S'). Qed.
  Lemma add_opps x1 y1 x2 y2 : on x1 y1 -> opps x1 y1 x2 y2 -> wadd (Some (x1, y1)) (Some (x2, y2)) = None.
  Proof.
    intros A [<- E]. cbn [wadd]. destruct (DEC x1 x1) as [_|C]; [|congruence]. destruct (DEC y1 y2) as [Y|Y]; [|reflexivity].
    destruct (NT _ _ A). apply opp_eq. congruence.
  Qed.
  Lemma line_on l x1 y1 x2 y2 : on x1 y1 -> on x2 y2 -> sl l x1 y1 x2 y2 -> onp (line l x1 y1 x2).
  Proof.
    intros A B [S1 S2]. unfold line, onp, on in *. cbv zeta. set (x3 := l * l - x1 - x2).
    assert (L2 : l * l = x1 + x2 + x3) by (subst x3; ring). clearbody x3.
    assert (T : 2 * (l * y1) = x1 * x1 + x1 * x2 + x2 * x2 - l * l * (x2 - x1)).
    { rewrite <- S2. assert (Y : y2 = y1 + l * (x2 - x1)) by (rewrite S1; ring). rewrite Y. ring. }
    transitivity (l * l * ((x1 - x3) * (x1 - x3)) - (2 * (l * y1)) * (x1 - x3) + y1 * y1); [ring|]. rewrite T, L2, A. ring.
  Qed.
  Lemma wadd_on P Q : onp P -> onp Q -> onp (wadd P Q).
  Proof.
    destruct P as [[x1 y1]|], Q as [[x2 y2]|]; cbn [onp]; intros A B; try (cbn [wadd onp]; auto; fail).
    destruct (opps_dec x1 y1 x2 y2) as [O|O]; [now rewrite (add_opps _ _ _ _ A O)|].
    destruct (ex_sl _ _ _ _ A B O) as (l & S & ->). now apply (line_on l x1 y1 x2 y2).
  Qed.
  Lemma wneg_on P : onp P -> onp (wneg P).
  Proof. destruct P as [[x y]|]; cbn; auto. unfold on. intros <-. ring. Qed.
  Lemma line_sym l x1 y1 x2 y2 : sl l x1 y1 x2 y2 -> line l x1 y1 x2 = line l x2 y2 x1.
  Proof.
    intros [S _]. unfold line. cbv zeta. replace (l * l - x2 - x1) with (l * l - x1 - x2) by ring. do 2 f_equal.
    assert (Y : y2 = y1 + l * (x2 - x1)) by (rewrite S; ring). rewrite Y. ring.
  Qed.
  Lemma sl_sym l x1 y1 x2 y2 : sl l x1 y1 x2 y2 -> sl l x2 y2 x1 y1.
  Proof. intros [A B]. split; [transitivity (- (l * (x2 - x1))); [ring|rewrite A; ring]|transitivity (l * (y1 + y2)); [ring|rewrite B; ring]]. Qed.
  Lemma opps_sym x1 y1 x2 y2 : opps x1 y1 x2 y2 -> opps x2 y2 x1 y1. Proof. intros [-> ->]. split; [reflexivity|ring]. Qed.
  Lemma wadd_comm P Q : onp P -> onp Q -> wadd P Q = wadd Q P.
  Proof.
    destruct P as [[x1 y1]|], Q as [[x2 y2]|]; cbn [onp]; intros A B; try reflexivity.
    destruct (opps_dec x1 y1 x2 y2) as [O|O]; [rewrite (add_opps _ _ _ _ A O), (add_opps _ _ _ _ B (opps_sym _ _ _ _ O)); reflexivity|].
    destruct (ex_sl _ _ _ _ A B O) as (l & S & ->). rewrite (add_sl l x2 y2 x1 y1 B A); [now apply line_sym| |now apply sl_sym]. intro X. apply O, opps_sym, X.
  Qed.
  Lemma wadd_0_l P : wadd None P = P. Proof. reflexivity. Qed.
  Lemma wadd_0_r P : wadd P None = P. Proof. destruct P as [[x y]|]; reflexivity. Qed.
  Lemma wadd_neg P : onp P -> wadd P (wneg P) = None.
  Proof. destruct P as [[x y]|]; cbn [onp wneg]; intro A; [|reflexivity]. apply add_opps; [exact A|]. split; [reflexivity|ring]. Qed.
  Lemma neg_neg P : wneg (wneg P) = P. Proof. destruct P as [[x y]|]; cbn; [|reflexivity]. do 2 f_equal. ring. Qed.
  Lemma neg_add P Q : onp P -> onp Q -> wneg (wadd P Q) = wadd (wneg P) (wneg Q).
  Proof.
    destruct P as [[x1 y1]|], Q as [[x2 y2]|]; cbn [onp]; intros A B; try reflexivity.
    assert (A' := wneg_on (Some (x1, y1)) A). assert (B' := wneg_on (Some (x2, y2)) B). cbn [wneg onp] in *.
    destruct (opps_dec x1 y1 x2 y2) as [O|O].
    - rewrite (add_opps _ _ _ _ A O). rewrite add_opps; [reflexivity|exact A'|]. destruct O as [-> ->]. split; [reflexivity|ring].
    - destruct (ex_sl _ _ _ _ A B O) as (l & S & ->). rewrite (add_sl (- l) x1 (- y1) x2 (- y2)); auto.
      + unfold line. cbn [wneg]. cbv zeta. replace (- l * - l) with (l * l) by ring. do 2 f_equal. ring.
      + intros [-> E]. apply O. split; [reflexivity|]. transitivity (- - y1); [ring|]. rewrite E. ring.
      + destruct S as [S1 S2]. split; [transitivity (- (l * (x2 - x1))); [ring|rewrite S1; ring]|transitivity (l * (y1 + y2)); [ring|exact S2]].
  Qed.
  (** -P + (P + Q) = Q *)
  Lemma cancel P Q : onp P -> onp Q -> wadd (wneg P) (wadd P Q) = Q.
  Proof.
    destruct P as [[x1 y1]|], Q as [[x2 y2]|]; cbn [onp wneg]; intros A B; try reflexivity.
    2:{ rewrite wadd_0_r. rewrite wadd_comm; [apply (wadd_neg (Some (x1, y1)) A)| |]; [apply (wneg_on (Some (x1, y1)) A)|exact A]. }
    destruct (opps_dec x1 y1 x2 y2) as [O|O].
    { rewrite (add_opps _ _ _ _ A O), wadd_0_r. destruct O as [-> ->]. do 2 f_equal. ring. }
    destruct (ex_sl _ _ _ _ A B O) as (l & S & ->). assert (C := line_on _ _ _ _ _ A B S). unfold line in *. cbv zeta in *. cbn [onp] in C.
    remember (l * l - x1 - x2) as x3 eqn:X3. remember (l * (x1 - x3) - y1) as y3 eqn:Y3.
    assert (A' := wneg_on (Some (x1, y1)) A). cbn [wneg onp] in A'.
    assert (N : ~ opps x1 (- y1) x3 y3).
    { intros [E1 E2]. apply (NT _ _ A). apply opp_eq. transitivity y3; [|rewrite Y3, E1; ring]. transitivity (- - y1); [ring|]. rewrite E2. ring. }
    destruct S as [S1 S2]. assert (L2 : l * l = x1 + x2 + x3) by (rewrite X3; ring).
    assert (Y2 : y2 = y1 + l * (x2 - x1)) by (rewrite S1; ring).
    rewrite (add_sl (- l) x1 (- y1) x3 y3 A' C N).
    - unfold line. cbv zeta. replace (- l * - l) with (l * l) by ring. replace (l * l - x1 - x3) with x2 by (rewrite L2; ring). do 2 f_equal. rewrite Y2. ring.
    - split; [rewrite Y3; ring|].
      assert (T : 2 * (l * y1) = x1 * x1 + x1 * x2 + x2 * x2 - l * l * (x2 - x1)) by (rewrite <- S2, Y2; ring).
      transitivity (2 * (l * y1) + (l * l) * (x3 - x1)); [rewrite Y3; ring|]. rewrite T, L2. ring.
  Qed.
  Lemma cancel' P Q : onp P -> onp Q -> wadd P (wadd (wneg P) Q) = Q.
  Proof. intros A B. rewrite <- (neg_neg P) at 1. apply cancel; auto. apply wneg_on, A. Qed.
  Lemma cancel_eq P Q R : onp P -> onp Q -> onp R -> wadd P Q = wadd P R -> Q = R.
  Proof. intros A B C E. rewrite <- (cancel P Q A B), <- (cancel P R A C), E. reflexivity. Qed.

  (** the two identities behind associativity, with the middle point moved to x = 0 *)
  Lemma gen_id u w a e y k s t : w - u <> 0 -> k * (w - u) = 2 * (e - a) * y - w * w + u * u + e * e * w - a * a * u ->
    s = a * a - k - u -> t = e * e - k - w ->
    (2 * y + a * s + e * w) * (2 * y + a * s + e * w) * ((t - u) * (t - u)) - (2 * y + e * t + a * u) * (2 * y + e * t + a * u) * ((s - w) * (s - w)) =
    (s + w - u - t) * ((s - w) * (s - w)) * ((t - u) * (t - u)).
  Proof.
    intros WU K S T.
    assert (Kd : k = (2 * (e - a) * y - w * w + u * u + e * e * w - a * a * u) / (w - u)) by (rewrite <- K; field; exact WU).
    subst s t. rewrite Kd. field. exact WU.
  Qed.
  Lemma gen_id2 u w a e y k s t : w - u <> 0 -> k * (w - u) = 2 * (e - a) * y - w * w + u * u + e * e * w - a * a * u ->
    s = a * a - k - u -> t = e * e - k - w ->
    let A := 2 * y + a * s + e * w in let B := 2 * y + e * t + a * u in let N := s - w in let M := t - u in
    let XN := A * A - (k + s + w) * (N * N) in
    A * (w * (N * N) - XN) * M - B * (u * (N * N) - XN) * N = (a * u - e * w) * (N * N * N * M).
  Proof.
    intros WU K S T. cbv zeta.
    assert (Kd : k = (2 * (e - a) * y - w * w + u * u + e * e * w - a * a * u) / (w - u)) by (rewrite <- K; field; exact WU).
    subst s t. rewrite Kd. field. exact WU.
  Qed.

  (** 2 S = (S - Q) + (S + Q) with S moved to x = 0 *)
  Lemma dbl_id e f w y k c p t m : w <> 0 -> y <> 0 -> 2 * y + (e + f) * w = 0 -> m = 2 * e * y - w * w - k * w + e * e * w -> 2 * c * y = m ->
    p = f * f - k - w -> t = e * e - k - w ->
    (c * c + p + t) * ((t - p) * (t - p)) = (e * t - f * p) * (e * t - f * p) /\
    (c * (c * c - k) + 2 * y + f * p) * (t - p) = (e * t - f * p) * (p - (c * c - k)).
  Proof.
    intros W Y Fw M C -> ->.
    assert (Fd : f = - (2 * y / w) - e). { apply (mul_cancel w); [exact W|]. apply sub_0. rewrite <- Fw. field. exact W. }
    assert (Cd : c = (2 * e * y - w * w - k * w + e * e * w) / (2 * y)) by (rewrite <- M, <- C; field; split; auto).
    rewrite Cd, Fd. split; field; repeat split; auto.
  Qed.

  Definition pt_dec (P Q : pt) : {P = Q} + {P <> Q}.
  Proof. destruct P as [[x1 y1]|], Q as [[x2 y2]|]; try (right; discriminate); [|now left]. destruct (DEC x1 x2) as [->|N]; [|right; congruence]. destruct (DEC y1 y2) as [->|N]; [now left|right; congruence]. Defined.
  Lemma nopps x1 y1 x2 y2 : Some (x1, y1) <> wneg (Some (x2, y2)) -> ~ opps x1 y1 x2 y2.
  Proof. intros N [-> ->]. now apply N. Qed.
  Lemma neq_x x1 y1 x2 y2 : on x1 y1 -> on x2 y2 -> Some (x1, y1) <> Some (x2, y2) -> Some (x1, y1) <> wneg (Some (x2, y2)) -> x1 <> x2.
  Proof. intros A B N M E. destruct (same_x _ _ _ _ A B E) as [Y|Y]; [apply N|apply M]; cbn; congruence. Qed.
  Lemma fsub_nz' x y : x <> y -> y - x <> 0. Proof. intros N E. apply N. symmetry. apply sub_0, E. Qed.

  Lemma assoc_gen P Q R : onp P -> onp Q -> onp R -> P <> None -> Q <> None -> R <> None ->
    P <> wneg Q -> Q <> wneg R -> wadd P Q <> wneg R -> P <> wneg (wadd Q R) -> P <> R -> P <> wneg R -> wadd P Q <> R -> P <> wadd Q R ->
    wadd (wadd P Q) R = wadd P (wadd Q R).
  Proof.
    destruct P as [[x1 y1]|], Q as [[x2 y2]|], R as [[x3 y3]|]; try congruence. cbn [onp]. intros A B C _ _ _ N1 N2 N3 N4 N5 N6 N7 N8.
    apply nopps in N1 as O1. apply nopps in N2 as O2. assert (X13 := neq_x _ _ _ _ A C N5 N6).
    destruct (ex_sl _ _ _ _ A B O1) as (a & SA & EA). destruct (ex_sl _ _ _ _ B C O2) as (e & SE & EE).
    assert (OS := line_on _ _ _ _ _ A B SA). assert (OT := line_on _ _ _ _ _ B C SE). rewrite EA in *. rewrite EE in *.
    rewrite (line_sym _ _ _ _ _ SA) in *. unfold line in *. cbv zeta in *. cbn [onp] in OS, OT.
    remember (a * a - x2 - x1) as xs eqn:XS. remember (e * e - x2 - x3) as xt eqn:XT.
    remember (a * (x2 - xs) - y2) as ys eqn:YS. remember (e * (x2 - xt) - y2) as yt eqn:YT.
    assert (XS3 := neq_x _ _ _ _ OS C N7 N3). assert (X1T := neq_x _ _ _ _ A OT N8 N4).
    cbn [wadd]. destruct (DEC xs x3) as [Z|_]; [contradiction|]. destruct (DEC x1 xt) as [Z|_]; [contradiction|].
    assert (D1 : x3 - xs <> 0) by (apply fsub_nz'; exact XS3). assert (D2 : xt - x1 <> 0) by (apply fsub_nz'; exact X1T).
    destruct SA as [SA1 SA2]. destruct SE as [SE1 SE2].
    assert (Y1 : y1 = y2 + a * (x1 - x2)). { apply sub_0. transitivity (a * (x2 - x1) - (y2 - y1)); [ring|]. rewrite SA1. ring. }
    assert (Y3 : y3 = y2 + e * (x3 - x2)). { rewrite SE1. ring. }
    remember ((y3 - ys) / (x3 - xs)) as c eqn:Cd. remember ((yt - y1) / (xt - x1)) as d eqn:Dd.
    pose (u := x1 - x2). pose (w := x3 - x2). pose (k := 3 * x2). pose (s := xs - x2). pose (t := xt - x2).
    assert (WU : w - u <> 0). { unfold w, u. intro Z. apply X13. symmetry. apply sub_0. rewrite <- Z. ring. }
    assert (K : k * (w - u) = 2 * (e - a) * y2 - w * w + u * u + e * e * w - a * a * u).
    { assert (E1 : 2 * a * y2 + a * a * u = x1 * x1 + x1 * x2 + x2 * x2) by (rewrite <- SA2, Y1; unfold u; ring).
      assert (E2 : 2 * e * y2 + e * e * w = x2 * x2 + x2 * x3 + x3 * x3) by (rewrite <- SE2, Y3; unfold w; ring).
      transitivity ((2 * e * y2 + e * e * w) - (2 * a * y2 + a * a * u) - w * w + u * u); [rewrite E1, E2; unfold k, u, w; ring|ring]. }
    assert (S : s = a * a - k - u) by (unfold s, k, u; rewrite XS; ring). assert (T : t = e * e - k - w) by (unfold t, k, w; rewrite XT; ring).
    assert (G1 := gen_id u w a e y2 k s t WU K S T). assert (G2 := gen_id2 u w a e y2 k s t WU K S T). cbv zeta in G2.
    set (AA := 2 * y2 + a * s + e * w) in *. set (BB := 2 * y2 + e * t + a * u) in *.
    assert (NN : s - w = - (x3 - xs)) by (unfold s, w; ring). assert (MM : t - u = xt - x1) by (unfold t, u; ring).
    set (N := s - w) in *. set (M := t - u) in *.
    assert (NZ : N <> 0) by (rewrite NN; intro Z; apply D1; transitivity (- - (x3 - xs)); [ring|rewrite Z; ring]).
    assert (MZ : M <> 0) by (rewrite MM; exact D2).
    assert (CA : c = - AA / N). { rewrite NN, Cd. unfold AA, s, w. rewrite YS, Y3. field. split; [rewrite <- NN; exact NZ|exact D1]. }
    assert (DB : d = - BB / M). { rewrite MM, Dd. unfold BB, t, u. rewrite YT, Y1. field. exact D2. }
    assert (XX : c * c - xs - x3 = d * d - x1 - xt).
    { apply sub_0. apply (mul_cancel (N * N * (M * M))); [repeat apply mul_nz; assumption|].
      transitivity (AA * AA * (M * M) - BB * BB * (N * N) - (s + w - u - t) * (N * N) * (M * M)); [rewrite CA, DB; unfold s, w, u, t; field; auto|].
      rewrite G1. ring. }
    assert (YY : c * (xs - (c * c - xs - x3)) - ys = d * (x1 - (d * d - x1 - xt)) - y1).
    { rewrite <- XX. assert (YSc : ys = y3 + c * (xs - x3)). { rewrite Cd. field. exact D1. } rewrite YSc. clear YSc.
      apply sub_0. apply (mul_cancel (N * N * N * M)); [repeat apply mul_nz; assumption|].
      transitivity (- (AA * (w * (N * N) - (AA * AA - (k + s + w) * (N * N))) * M - BB * (u * (N * N) - (AA * AA - (k + s + w) * (N * N))) * N) + (a * u - e * w) * (N * N * N * M)).
      - rewrite CA, DB, Y1, Y3. unfold k, s, w, u. field. auto.
      - rewrite G2. ring. }
    unfold line. cbv zeta. rewrite YY, XX. reflexivity.
  Qed.

  (** S + S = (S - Q) + (S + Q) *)
  Lemma dbl_split S Q : onp S -> onp Q -> S <> None -> Q <> None -> S <> Q -> S <> wneg Q ->
    wadd S (wneg Q) <> wneg (wadd S Q) -> wadd S (wneg Q) <> wadd S Q -> wadd S S = wadd (wadd S (wneg Q)) (wadd S Q).
  Proof.
    destruct S as [[x2 y2]|], Q as [[x3 y3]|]; try congruence. cbn [onp]. intros A B _ _ N1 N2 N3 N4.
    assert (X := neq_x _ _ _ _ A B N1 N2). apply nopps in N2 as O2.
    assert (B' := wneg_on (Some (x3, y3)) B). cbn [wneg onp] in *.
    assert (O1 : ~ opps x2 y2 x3 (- y3)) by (intros [E _]; contradiction).
    assert (O3 : ~ opps x2 y2 x2 y2) by (intros [_ E]; apply (NT _ _ A), opp_eq, E).
    destruct (ex_sl _ _ _ _ A B O2) as (e & SE & EE). destruct (ex_sl _ _ _ _ A B' O1) as (f & SF & EF).
    destruct (ex_sl _ _ _ _ A A O3) as (c & SC & EC).
    assert (OT := line_on _ _ _ _ _ A B SE). assert (OP := line_on _ _ _ _ _ A B' SF). rewrite EC, EE, EF in *. clear EC EE EF.
    unfold line in *. cbv zeta in *. cbn [onp] in OT, OP. 
    remember (e * e - x2 - x3) as xt eqn:XT. remember (f * f - x2 - x3) as xp eqn:XP.
    remember (e * (x2 - xt) - y2) as yt eqn:YT. remember (f * (x2 - xp) - y2) as yp eqn:YP.
    assert (XPT := neq_x _ _ _ _ OP OT N4 N3). cbn [wadd]. destruct (DEC xp xt) as [Z|_]; [contradiction|].
    assert (D : xt - xp <> 0) by (apply fsub_nz'; exact XPT). unfold line. cbv zeta.
    destruct SE as [SE1 SE2], SF as [SF1 SF2], SC as [_ SC2]. assert (Y0 := NT _ _ A).
    pose (w := x3 - x2). pose (k := 3 * x2). pose (p := xp - x2). pose (t := xt - x2).
    assert (W : w <> 0) by (apply fsub_nz'; exact X).
    assert (H1 : 2 * y2 + (e + f) * w = 0). { transitivity (2 * y2 + e * (x3 - x2) + f * (x3 - x2)); [unfold w; ring|]. rewrite SE1, SF1. ring. }
    assert (Y3 : y3 = y2 + e * w) by (unfold w; rewrite SE1; ring).
    assert (H2 : 2 * c * y2 = 2 * e * y2 - w * w - k * w + e * e * w).
    { assert (E2 : 2 * e * y2 + e * e * w = x2 * x2 + x2 * x3 + x3 * x3) by (rewrite <- SE2, Y3; ring).
      transitivity (c * (y2 + y2)); [ring|]. rewrite SC2. transitivity ((2 * e * y2 + e * e * w) - w * w - k * w); [rewrite E2; unfold w, k; ring|ring]. }
    assert (P' : p = f * f - k - w) by (unfold p, k, w; rewrite XP; ring). assert (T' : t = e * e - k - w) by (unfold t, k, w; rewrite XT; ring).
    destruct (dbl_id e f w y2 k c p t _ W Y0 H1 eq_refl H2 P' T') as [I1 I2].
    remember ((yt - yp) / (xt - xp)) as g eqn:Gd.
    assert (TP : t - p = xt - xp) by (unfold t, p; ring). assert (TPZ : t - p <> 0) by (rewrite TP; exact D).
    assert (G : g * (t - p) = - (e * t - f * p)). { rewrite TP, Gd. transitivity (yt - yp); [field; exact D|]. rewrite YT, YP. unfold t, p. ring. }
    assert (XX : c * c - x2 - x2 = g * g - xp - xt).
    { apply sub_0. apply (mul_cancel ((t - p) * (t - p))); [apply mul_nz; assumption|].
      transitivity ((c * c + p + t) * ((t - p) * (t - p)) - (g * (t - p)) * (g * (t - p))); [unfold p, t; ring|]. rewrite I1, G. ring. }
    rewrite <- XX. do 2 f_equal.
    apply sub_0. apply (mul_cancel (t - p)); [exact TPZ|].
    transitivity (- ((c * (c * c - k) + 2 * y2 + f * p) * (t - p)) - (g * (t - p)) * (p - (c * c - k))); [|rewrite I2, G; ring].
    rewrite YP. unfold p, t, k. ring.
  Qed.

  Lemma neg_eq P Q : P = wneg Q -> Q = wneg P. Proof. intros ->. symmetry. apply neg_neg. Qed.
  Lemma self_neg P : onp P -> P = wneg P -> P = None.
  Proof. destruct P as [[x y]|]; cbn [onp wneg]; auto. intros A E. destruct (NT _ _ A). apply opp_eq. congruence. Qed.
  Lemma cancel_r P Q : onp P -> onp Q -> wadd (wadd P Q) (wneg Q) = P.
  Proof. intros A B. rewrite (wadd_comm P Q A B), wadd_comm; [now apply cancel|now apply wadd_on|now apply wneg_on]. Qed.
  (** (P + Q) + (P + Q) = P + (Q + (P + Q)) *)
  Lemma assoc_dbl P Q : onp P -> onp Q -> P <> None -> Q <> None -> P <> wneg Q -> Q <> wneg (wadd P Q) -> P <> wneg (wadd Q (wadd P Q)) ->
    wadd (wadd P Q) (wadd P Q) = wadd P (wadd Q (wadd P Q)).
  Proof.
    intros A B NP NQ N1 N2 N3. assert (C := wadd_on P Q A B). assert (E := cancel_r P Q A B). remember (wadd P Q) as S eqn:ES.
    rewrite (wadd_comm Q S B C) in *. rewrite <- E. rewrite <- E in N3. 
    assert (SQ : S <> wneg Q) by (intro Z; apply N2, neg_eq, Z).
    apply dbl_split; auto.
    - intro Z. apply N1. rewrite Z in E, ES. rewrite <- E. reflexivity.
    - intro Z. apply NP. rewrite <- E, Z. apply wadd_neg, B.
    - intro Z. apply NQ. apply self_neg; [exact B|]. symmetry. apply (cancel_eq S); auto. now apply wneg_on.
  Qed.

  Theorem wadd_assoc P Q R : onp P -> onp Q -> onp R -> wadd (wadd P Q) R = wadd P (wadd Q R).
  Proof.
    intros A B C. assert (PQ := wadd_on P Q A B). assert (QR := wadd_on Q R B C).
    destruct (pt_dec P None) as [->|P0]; [reflexivity|]. destruct (pt_dec Q None) as [->|Q0]; [now rewrite wadd_0_r|].
    destruct (pt_dec R None) as [->|R0]; [now rewrite !wadd_0_r|].
    destruct (pt_dec P (wneg Q)) as [->|N1]; [rewrite cancel by auto; rewrite (wadd_comm (wneg Q) Q), (wadd_neg Q B) by auto; reflexivity|].
    destruct (pt_dec Q (wneg R)) as [->|N2]; [rewrite (wadd_comm (wneg R) R), (wadd_neg R C), wadd_0_r by auto; rewrite <- (neg_neg R) at 2; now apply cancel_r|].
    destruct (pt_dec (wadd P Q) (wneg R)) as [E|N3].
    { rewrite E, (wadd_comm (wneg R) R), (wadd_neg R C) by (auto using wneg_on). apply neg_eq in E. rewrite E, neg_add by auto.
      rewrite (wadd_comm (wneg P)) by (auto using wneg_on). rewrite cancel' by (auto using wneg_on). symmetry. now apply wadd_neg. }
    destruct (pt_dec P (wneg (wadd Q R))) as [E|N4].
    { rewrite E at 2. rewrite (wadd_comm (wneg (wadd Q R))), (wadd_neg _ QR) by (auto using wneg_on).
      rewrite E, neg_add by auto. rewrite (wadd_comm (wneg Q)) by (auto using wneg_on). rewrite <- (neg_neg Q) at 2. rewrite cancel_r by (auto using wneg_on).
      rewrite wadd_comm by (auto using wneg_on). now apply wadd_neg. }
    destruct (pt_dec P R) as [<-|N5]; [rewrite (wadd_comm Q P) by auto; now apply wadd_comm|].
    destruct (pt_dec (wadd P Q) R) as [E|N7].
    { assert (X := assoc_dbl P Q A B P0 Q0 N1). rewrite E in X |- *. apply X; auto. }
    destruct (pt_dec P (wadd Q R)) as [E|N8].
    { rewrite (wadd_comm Q R B C) in *. rewrite (wadd_comm P Q A B), (wadd_comm (wadd Q P) R) by auto using wadd_on. 
      assert (X := assoc_dbl R Q C B R0 Q0). rewrite <- E in X |- *. symmetry. apply X.
      - intro Z. apply N2, neg_eq, Z.
      - intro Z. apply N1, neg_eq, Z.
      - intro Z. apply N3. rewrite (wadd_comm P Q A B). apply neg_eq, Z. }
    destruct (pt_dec P (wneg R)) as [E|N6].
    { (* (-R + Q) + R = -R + (Q + R) *) rewrite E. rewrite (wadd_comm (wneg R) Q), (wadd_comm Q R) by (auto using wneg_on). rewrite cancel by auto.
      rewrite <- (neg_neg R) at 2. apply cancel_r; auto using wneg_on. }
    apply assoc_gen; auto.
  Qed.

  (** ** Jacobian coordinates: (X, Y, Z) stands for (X/Z^2, Y/Z^3), and for the point at infinity when Z = 0 *)
  Definition jac (X Y Z : F) (P : pt) : Prop := match P with None => Z = 0 | Some (x, y) => Z <> 0 /\ X = x * (Z * Z) /\ Y = y * (Z * Z * Z) end.
  Lemma jac_same_x X1 Y1 Z1 x1 y1 X2 Y2 Z2 x2 y2 : jac X1 Y1 Z1 (Some (x1, y1)) -> jac X2 Y2 Z2 (Some (x2, y2)) -> X1 * (Z2 * Z2) = X2 * (Z1 * Z1) -> x1 = x2.
  Proof.
    intros (N1 & -> & _) (N2 & -> & _) E. apply (mul_cancel (Z1 * Z1 * (Z2 * Z2))); [repeat apply mul_nz; assumption|].
    transitivity (x1 * (Z1 * Z1) * (Z2 * Z2)); [ring|]. rewrite E. ring.
  Qed.
  Lemma jac_same_y X1 Y1 Z1 x1 y1 X2 Y2 Z2 x2 y2 : jac X1 Y1 Z1 (Some (x1, y1)) -> jac X2 Y2 Z2 (Some (x2, y2)) -> Y1 * (Z2 * Z2 * Z2) = Y2 * (Z1 * Z1 * Z1) -> y1 = y2.
  Proof.
    intros (N1 & _ & ->) (N2 & _ & ->) E. apply (mul_cancel (Z1 * Z1 * Z1 * (Z2 * Z2 * Z2))); [repeat apply mul_nz; assumption|].
    transitivity (y1 * (Z1 * Z1 * Z1) * (Z2 * Z2 * Z2)); [ring|]. rewrite E. ring.
  Qed.
  (** general addition *)
  Lemma jac_add X1 Y1 Z1 P X2 Y2 Z2 Q h r X3 Y3 Z3 : jac X1 Y1 Z1 P -> jac X2 Y2 Z2 Q -> Z1 <> 0 -> Z2 <> 0 ->
    h = X2 * (Z1 * Z1) - X1 * (Z2 * Z2) -> r = 2 * (Y2 * (Z1 * Z1 * Z1) - Y1 * (Z2 * Z2 * Z2)) -> h <> 0 ->
    X3 = r * r - 2 * 2 * (h * h * h) - 2 * 2 * 2 * (X1 * (Z2 * Z2) * (h * h)) ->
    Y3 = r * (2 * 2 * (X1 * (Z2 * Z2) * (h * h)) - X3) - 2 * 2 * 2 * (Y1 * (Z2 * Z2 * Z2) * (h * h * h)) ->
    Z3 = 2 * (Z1 * Z2 * h) -> jac X3 Y3 Z3 (wadd P Q).
  Proof.
    destruct P as [[x1 y1]|]; [|cbn [jac]; congruence]. destruct Q as [[x2 y2]|]; [|cbn [jac]; congruence].
    intros (_ & -> & ->) (_ & -> & ->) N1 N2 H R H0 EX EY EZ. cbn [wadd].
    assert (Hh : h = Z1 * Z1 * (Z2 * Z2) * (x2 - x1)) by (rewrite H; ring).
    assert (Hr : r = 2 * (Z1 * Z1 * Z1 * (Z2 * Z2 * Z2) * (y2 - y1))) by (rewrite R; ring). clear H R.
    assert (D : x2 - x1 <> 0) by (intro E; apply H0; rewrite Hh, E; ring).
    destruct (DEC x1 x2) as [E|_]; [destruct D; rewrite E; ring|]. unfold line, jac. cbv zeta.
    split; [rewrite EZ; repeat (apply mul_nz; auto)|]. rewrite EZ, EY, EX, Hr, Hh. split; field; exact D.
  Qed.
  (** addition with a common third coordinate *)
  Lemma jac_add_z X1 Y1 Z P X2 Y2 Q a c X3 Y3 Z3 : jac X1 Y1 Z P -> jac X2 Y2 Z Q -> Z <> 0 -> a = X2 - X1 -> c = Y2 - Y1 -> a <> 0 ->
    X3 = c * c - X1 * (a * a) - X2 * (a * a) -> Y3 = c * (X1 * (a * a) - X3) - Y1 * (X2 * (a * a) - X1 * (a * a)) -> Z3 = Z * a -> jac X3 Y3 Z3 (wadd P Q).
  Proof.
    destruct P as [[x1 y1]|]; [|cbn [jac]; congruence]. destruct Q as [[x2 y2]|]; [|cbn [jac]; congruence].
    intros (_ & -> & ->) (_ & -> & ->) N H R H0 EX EY EZ. cbn [wadd].
    assert (Hh : a = Z * Z * (x2 - x1)) by (rewrite H; ring). assert (Hr : c = Z * Z * Z * (y2 - y1)) by (rewrite R; ring). clear H R.
    assert (D : x2 - x1 <> 0) by (intro E; apply H0; rewrite Hh, E; ring).
    destruct (DEC x1 x2) as [E|_]; [destruct D; rewrite E; ring|]. unfold line, jac. cbv zeta.
    split; [rewrite EZ; repeat (apply mul_nz; auto)|]. rewrite EZ, EY, EX, Hr, Hh. split; field; exact D.
  Qed.
  (** doubling *)
  Lemma jac_dbl X Y Z P X3 Y3 Z3 : onp P -> jac X Y Z P -> Z <> 0 ->
    X3 = 3 * (X * X) * (3 * (X * X)) - 2 * 2 * 2 * (X * (Y * Y)) -> Y3 = 3 * (X * X) * (2 * 2 * (X * (Y * Y)) - X3) - 2 * 2 * 2 * (Y * Y * (Y * Y)) ->
    Z3 = 2 * (Y * Z) -> jac X3 Y3 Z3 (wadd P P).
  Proof.
    destruct P as [[x y]|]; [|cbn [jac]; congruence]. intros O (_ & -> & ->) N EX EY EZ. cbn [onp] in O. assert (Y0 := NT _ _ O). cbn [wadd].
    destruct (DEC x x) as [_|E]; [|congruence]. destruct (DEC y y) as [_|E]; [|congruence]. destruct (DEC y 0) as [E|_]; [contradiction|]. unfold line, jac. cbv zeta.
    split; [rewrite EZ; repeat (apply mul_nz; auto)|]. rewrite EZ, EY, EX. split; field; split; assumption.
  Qed.
  Lemma jac_y X Y Z P : onp P -> jac X Y Z P -> Z <> 0 -> Y <> 0.
  Proof. destruct P as [[x y]|]; [|cbn [jac]; congruence]. intros O (N & _ & ->) _. repeat (apply mul_nz; auto). now apply (NT x). Qed.
  Lemma jac_inj X Y Z P Q : jac X Y Z P -> jac X Y Z Q -> P = Q.
  Proof.
    destruct P as [[x1 y1]|], Q as [[x2 y2]|]; cbn [jac]; auto; intros A B; try (destruct A, B; contradiction); try (destruct A; contradiction); try (destruct B; contradiction).
    assert (A' := A). assert (B' := B). destruct A as (N & EX & EY), B as (_ & FX & FY).
    assert (x1 = x2) by (apply (jac_same_x X Y Z x1 y1 X Y Z x2 y2); auto). assert (y1 = y2) by (apply (jac_same_y X Y Z x1 y1 X Y Z x2 y2); auto). congruence.
  Qed.

  (** the points of the curve *)
  Lemma on_irr x y (a b' : on x y) : a = b'. Proof. apply UIP_dec, DEC. Qed.
  Definition wpt : Type := {P : pt | onp P}.
  Lemma wpt_eq (P Q : wpt) : proj1_sig P = proj1_sig Q -> P = Q.
  Proof. destruct P as [P A], Q as [Q B]. cbn. intros <-. f_equal. destruct P as [[x y]|]; [apply on_irr|]. destruct A, B. reflexivity. Qed.
  Definition gadd (P Q : wpt) : wpt := exist _ (wadd (proj1_sig P) (proj1_sig Q)) (wadd_on _ _ (proj2_sig P) (proj2_sig Q)).
  Definition gneg (P : wpt) : wpt := exist _ (wneg (proj1_sig P)) (wneg_on _ (proj2_sig P)).
  Definition gzero : wpt := exist _ None I.
  Lemma gadd_comm P Q : gadd P Q = gadd Q P. Proof. apply wpt_eq, wadd_comm; apply proj2_sig. Qed.
  Lemma gadd_assoc P Q R : gadd (gadd P Q) R = gadd P (gadd Q R). Proof. apply wpt_eq, wadd_assoc; apply proj2_sig. Qed.
  Lemma gadd_0_l P : gadd gzero P = P. Proof. apply wpt_eq, wadd_0_l. Qed.
  Lemma gadd_neg P : gadd P (gneg P) = gzero. Proof. apply wpt_eq, wadd_neg, proj2_sig. Qed.
  Lemma gself_neg P : P = gneg P -> P = gzero. Proof. intro E. apply wpt_eq. apply self_neg; [apply proj2_sig|]. exact (f_equal (@proj1_sig _ _) E). Qed.
End W.
