(** EdGroup.v -- the twisted Edwards curve -x^2 + y^2 = 1 + d x^2 y^2 over a field in which -1 is a square and d is not:
    the addition law is complete and gives an abelian group.  Pure mathematics; no Go code is modelled here (the curve
    arithmetic of decred/edwards, used through crypto/ecpoint.go, is instantiated from it in Ed25519.v). *)
From Coq Require Import ZArith Ring Field NsatzTactic Setoid Morphisms Eqdep_dec.

Section Ed.
  Variable F : Type.
  Variables (f0 f1 : F) (add mul sub : F -> F -> F) (opp : F -> F) (div : F -> F -> F) (inv : F -> F).
  Hypothesis FT : field_theory f0 f1 add mul sub opp div inv (@eq F).
  Hypothesis ID : forall x y, mul x y = f0 -> x = f0 \/ y = f0.
  Hypothesis DEC : forall x y : F, {x = y} + {x <> y}.
  Add Field Ff : FT.
  Instance ops : @Ring_ops F f0 f1 add mul sub opp (@eq F) := {}.
  Instance rr : @Ring F f0 f1 add mul sub opp (@eq F) ops.
  Proof. constructor; try (intros; unfold equality, addition, multiplication, subtraction, opposite, zero, one, eq_notation, add_notation, mul_notation, sub_notation, opp_notation, zero_notation, one_notation in *; simpl in *; ring); try (repeat intro; congruence).
    - apply eq_equivalence.
  Qed.
  Instance cr : @Cring F f0 f1 add mul sub opp (@eq F) ops rr.
  Proof. intros x y. change (mul x y = mul y x). ring. Qed.
  Instance idom : @Integral_domain F f0 f1 add mul sub opp (@eq F) ops rr cr.
  Proof. constructor. { intros x y H. apply ID. exact H. } { change (f1 <> f0). exact (F_1_neq_0 FT). } Qed.
  Declare Scope f_scope. Delimit Scope f_scope with f. Open Scope f_scope.
  Notation "0" := f0 : f_scope. Notation "1" := f1 : f_scope. Infix "+" := add : f_scope. Infix "*" := mul : f_scope.
  Infix "-" := sub : f_scope. Infix "/" := div : f_scope. Notation "- x" := (opp x) : f_scope.
  Variables (d i : F).
  Hypothesis TWO : 1 + 1 <> 0.
  Hypothesis I2 : i * i = - (1).
  Hypothesis DNS : forall x, x * x <> d.

  Lemma f_mul_nz a b : a <> 0 -> b <> 0 -> a * b <> 0.
  Proof. intros A B H. destruct (ID _ _ H); auto. Qed.
  Lemma f_sub_0 a b : a - b = 0 -> a = b.
  Proof. intro H. assert (E : a = (a - b) + b) by ring. rewrite E, H. ring. Qed.
  Lemma f_sub_nz a b : a <> b -> a - b <> 0. Proof. intros H E. apply H, f_sub_0, E. Qed.
  Lemma f_mul_cancel a b c : a <> 0 -> a * b = a * c -> b = c.
  Proof. intros A H. apply f_sub_0. destruct (ID a (b - c)) as [X|X]; [|contradiction|exact X]. assert (E : a * (b - c) = a * b - a * c) by ring. rewrite E, H. ring. Qed.
  Lemma i_nz : i <> 0.
  Proof. intro E. apply (F_1_neq_0 FT). assert (X : 1 = - (i * i)) by (rewrite I2; ring). rewrite X, E. ring. Qed.

  Definition on (x y : F) : Prop := y*y - x*x = 1 + d*(x*x)*(y*y).

  (** completeness *)
  Lemma sq_ratio a b : b <> 0 -> a * a = d * (b * b) -> False.
  Proof. intros B E. apply (DNS (a / b)). assert (X : a / b * (a / b) = (a * a) / (b * b)) by (field; exact B). rewrite X, E. field. exact B. Qed.
  Lemma complete_aux x1 y1 x2 y2 e : on x1 y1 -> on x2 y2 -> e = d*x1*x2*y1*y2 -> e * e = 1 -> False.
  Proof.
    unfold on. intros H1 H2 He E.
    assert (NZ : e <> 0). { intro Z. rewrite Z in E. apply (F_1_neq_0 FT). rewrite <- E. ring. }
    assert (U : d * d * (x1*x1)*(x2*x2)*(y1*y1)*(y2*y2) = 1) by (rewrite <- E, He; ring).
    assert (K : forall s, s * s = 1 -> (i*x1 + s*e*y1) * (i*x1 + s*e*y1) = d * ((x1*y1*(i*x2+s*y2)) * (x1*y1*(i*x2+s*y2)))).
    { intros s S.
      assert (A : (i*x1 + s*e*y1) * (i*x1 + s*e*y1) = (i*i)*(x1*x1) + (s * s) * (e * e) * (y1*y1) + (1+1)*s*i*e*x1*y1) by ring.
      assert (B : d * ((x1*y1*(i*x2+s*y2)) * (x1*y1*(i*x2+s*y2))) = d * ((x1*x1)*(y1*y1)*((i * i) *(x2*x2)+ (s * s) * (y2*y2)) + (1+1) *s * i * (x1*x1)*(y1*y1) *x2*y2)) by ring.
      rewrite A, B, I2, E, S.
      assert (T : (1+1)*s*i*e*x1*y1 = (1+1)*s*i*d*(x1*x1)*(y1*y1)*x2*y2) by (rewrite He; ring). rewrite T.
      assert (V : - (1) * (x2*x2) + 1 * (y2*y2) = 1 + d*(x2*x2)*(y2*y2)) by (rewrite <- H2; ring). rewrite V.
      assert (W : - (1) * (x1*x1) + 1 * 1 * (y1*y1) = 1 + d*(x1*x1)*(y1*y1)) by (rewrite <- H1; ring). rewrite W.
      assert (Z : d*((x1*x1)*(y1*y1)*(1 + d*(x2*x2)*(y2*y2)) + (1+1)*s*i*(x1*x1)*(y1*y1)*x2*y2) =
                  d*(x1*x1)*(y1*y1) + d * d * (x1*x1)*(x2*x2)*(y1*y1)*(y2*y2) + (1+1)*s*i*d*(x1*x1)*(y1*y1)*x2*y2) by ring.
      rewrite Z, U. ring. }
    assert (X1 : x1 * y1 <> 0). { intro Z. apply NZ. assert (Y : e = d * x2 * y2 * (x1 * y1)) by (rewrite He; ring). rewrite Y, Z. ring. }
    assert (Y2 : y2 <> 0). { intro Z. apply NZ. rewrite He, Z. ring. }
    destruct (DEC (i * x2 + 1 * y2) 0) as [Z|Z].
    - destruct (DEC (i * x2 + - (1) * y2) 0) as [Z'|Z'].
      + apply (f_mul_nz _ _ TWO Y2). assert (W : (1 + 1) * y2 = (i * x2 + 1 * y2) - (i * x2 + - (1) * y2)) by ring. rewrite W, Z, Z'. ring.
      + apply (sq_ratio _ _ (f_mul_nz _ _ X1 Z') (K (- (1)) ltac:(ring))).
    - apply (sq_ratio _ _ (f_mul_nz _ _ X1 Z) (K 1 ltac:(ring))).
  Qed.
  Lemma den_plus x1 y1 x2 y2 : on x1 y1 -> on x2 y2 -> 1 + d*x1*x2*y1*y2 <> 0.
  Proof. intros A B E. apply (complete_aux x1 y1 x2 y2 _ A B eq_refl). assert (X : d*x1*x2*y1*y2 = (1 + d*x1*x2*y1*y2) - 1) by ring. rewrite X, E. ring. Qed.
  Lemma den_minus x1 y1 x2 y2 : on x1 y1 -> on x2 y2 -> 1 - d*x1*x2*y1*y2 <> 0.
  Proof. intros A B E. apply (complete_aux x1 y1 x2 y2 _ A B eq_refl). assert (X : d*x1*x2*y1*y2 = 1 - (1 - d*x1*x2*y1*y2)) by ring. rewrite X, E. ring. Qed.

  Definition addx x1 y1 x2 y2 := (x1*y2 + x2*y1) / (1 + d*x1*x2*y1*y2).
  Definition addy x1 y1 x2 y2 := (y1*y2 + x1*x2) / (1 - d*x1*x2*y1*y2).

  Lemma ed_closure x1 y1 x2 y2 : on x1 y1 -> on x2 y2 -> on (addx x1 y1 x2 y2) (addy x1 y1 x2 y2).
  Proof.
    intros A B. pose proof (den_plus _ _ _ _ A B) as P. pose proof (den_minus _ _ _ _ A B) as M. unfold on, addx, addy in *.
    field_simplify_eq; [|split; assumption]. nsatz.
  Qed.
  Lemma ed_comm x1 y1 x2 y2 : addx x1 y1 x2 y2 = addx x2 y2 x1 y1 /\ addy x1 y1 x2 y2 = addy x2 y2 x1 y1.
  Proof. unfold addx, addy. split; f_equal; ring. Qed.
  Lemma ed_id x y : addx 0 1 x y = x /\ addy 0 1 x y = y.
  Proof. unfold addx, addy. split; field; intro H; apply (F_1_neq_0 FT); rewrite <- H; ring. Qed.
  Lemma ed_id_on : on 0 1. Proof. unfold on. ring. Qed.
  Lemma ed_neg_on x y : on x y -> on (- x) y. Proof. unfold on. intro H. assert (E : - x * - x = x * x) by ring. rewrite E. exact H. Qed.
  Lemma ed_inv x y : on x y -> addx x y (- x) y = 0 /\ addy x y (- x) y = 1.
  Proof.
    intro A. pose proof (den_plus _ _ _ _ A (ed_neg_on _ _ A)) as P. pose proof (den_minus _ _ _ _ A (ed_neg_on _ _ A)) as M. unfold addx, addy.
    split; [field_simplify_eq; [ring|exact P]|].
    assert (E : y*y + x * - x = 1 - d*x* - x*y*y). { unfold on in A. assert (Z : y*y + x * - x = y*y - x*x) by ring. rewrite Z, A. ring. }
    rewrite E. field. exact M.
  Qed.
  Lemma nz_clear u v a b P M : P <> 0 -> M <> 0 -> 1 + d * (a / P) * u * (b / M) * v <> 0 -> P * M + d * a * u * b * v <> 0.
  Proof. intros HP HM H E. apply H. assert (X : 1 + d * (a / P) * u * (b / M) * v = (P * M + d * a * u * b * v) / (P * M)) by (field; auto). rewrite X, E. field. auto. Qed.
  Lemma nz_clear' u v a b P M : P <> 0 -> M <> 0 -> 1 + d * u * (a / P) * v * (b / M) <> 0 -> P * M + d * u * a * v * b <> 0.
  Proof. intros HP HM H E. apply H. assert (X : 1 + d * u * (a / P) * v * (b / M) = (P * M + d * u * a * v * b) / (P * M)) by (field; auto). rewrite X, E. field. auto. Qed.
  Lemma nz_clear_m u v a b P M : P <> 0 -> M <> 0 -> 1 - d * (a / P) * u * (b / M) * v <> 0 -> P * M - d * a * u * b * v <> 0.
  Proof. intros HP HM H E. apply H. assert (X : 1 - d * (a / P) * u * (b / M) * v = (P * M - d * a * u * b * v) / (P * M)) by (field; auto). rewrite X, E. field. auto. Qed.
  Lemma nz_clear_m' u v a b P M : P <> 0 -> M <> 0 -> 1 - d * u * (a / P) * v * (b / M) <> 0 -> P * M - d * u * a * v * b <> 0.
  Proof. intros HP HM H E. apply H. assert (X : 1 - d * u * (a / P) * v * (b / M) = (P * M - d * u * a * v * b) / (P * M)) by (field; auto). rewrite X, E. field. auto. Qed.
  Lemma ed_assoc_x x1 y1 x2 y2 x3 y3 : on x1 y1 -> on x2 y2 -> on x3 y3 ->
    addx (addx x1 y1 x2 y2) (addy x1 y1 x2 y2) x3 y3 = addx x1 y1 (addx x2 y2 x3 y3) (addy x2 y2 x3 y3).
  Proof.
    intros A B C. pose proof (den_plus _ _ _ _ A B) as P1. pose proof (den_minus _ _ _ _ A B) as M1.
    pose proof (den_plus _ _ _ _ B C) as P2. pose proof (den_minus _ _ _ _ B C) as M2.
    pose proof (den_plus _ _ _ _ (ed_closure _ _ _ _ A B) C) as P3. pose proof (den_plus _ _ _ _ A (ed_closure _ _ _ _ B C)) as P4.
    unfold addx, addy in *. apply nz_clear in P3; auto. apply nz_clear' in P4; auto.
    field_simplify_eq; [|repeat split; assumption].
    clear P1 M1 P2 M2 P3 P4. unfold on in A, B, C. nsatz.
  Qed.
  Lemma ed_assoc_y x1 y1 x2 y2 x3 y3 : on x1 y1 -> on x2 y2 -> on x3 y3 ->
    addy (addx x1 y1 x2 y2) (addy x1 y1 x2 y2) x3 y3 = addy x1 y1 (addx x2 y2 x3 y3) (addy x2 y2 x3 y3).
  Proof.
    intros A B C. pose proof (den_plus _ _ _ _ A B) as P1. pose proof (den_minus _ _ _ _ A B) as M1.
    pose proof (den_plus _ _ _ _ B C) as P2. pose proof (den_minus _ _ _ _ B C) as M2.
    pose proof (den_minus _ _ _ _ (ed_closure _ _ _ _ A B) C) as P3. pose proof (den_minus _ _ _ _ A (ed_closure _ _ _ _ B C)) as P4.
    unfold addx, addy in *. apply nz_clear_m in P3; auto. apply nz_clear_m' in P4; auto.
    field_simplify_eq; [|repeat split; assumption].
    clear P1 M1 P2 M2 P3 P4. unfold on in A, B, C. nsatz.
  Qed.

  (** points of the curve as a type with Leibniz equality *)
  Definition onb (x y : F) : bool := if DEC (y*y - x*x) (1 + d*(x*x)*(y*y)) then true else false.
  Lemma onb_on x y : onb x y = true <-> on x y.
  Proof. unfold onb, on. destruct (DEC _ _); split; auto; try discriminate; intro; contradiction. Qed.
  Record ept := Ept { ex : F; ey : F; eon : onb ex ey = true }.
  Lemma ept_eq P Q : ex P = ex Q -> ey P = ey Q -> P = Q.
  Proof. destruct P as [x y H], Q as [x' y' H']; cbn. intros -> ->. f_equal. apply UIP_dec. apply Bool.bool_dec. Qed.
  Definition mk_ept x y (H : on x y) : ept := Ept x y (proj2 (onb_on x y) H).
  Lemma ept_on P : on (ex P) (ey P). Proof. apply onb_on, eon. Qed.
  Definition eadd (P Q : ept) : ept := mk_ept _ _ (ed_closure _ _ _ _ (ept_on P) (ept_on Q)).
  Definition ezero : ept := mk_ept 0 1 ed_id_on.
  Definition eneg (P : ept) : ept := mk_ept _ _ (ed_neg_on _ _ (ept_on P)).
  Lemma eadd_comm P Q : eadd P Q = eadd Q P. Proof. apply ept_eq; cbn; apply ed_comm. Qed.
  Lemma eadd_0_l P : eadd ezero P = P. Proof. apply ept_eq; cbn; apply ed_id. Qed.
  Lemma eadd_neg P : eadd P (eneg P) = ezero. Proof. apply ept_eq; cbn; apply (ed_inv _ _ (ept_on P)). Qed.
  Lemma eadd_assoc P Q R : eadd (eadd P Q) R = eadd P (eadd Q R).
  Proof. apply ept_eq; cbn; [apply ed_assoc_x|apply ed_assoc_y]; apply ept_on. Qed.
  Definition ept_dec (P Q : ept) : {P = Q} + {P <> Q}.
  Proof. destruct (DEC (ex P) (ex Q)) as [E|N]; [destruct (DEC (ey P) (ey Q)) as [E'|N]|]; [left; now apply ept_eq|right; congruence|right; congruence]. Defined.

  (** projective coordinates: (X, Y, Z) with Z <> 0 stands for (X/Z, Y/Z) *)
  Definition rep (t : F * F * F) (P : ept) : Prop :=
    let '(X, Y, Z) := t in Z <> 0 /\ X = ex P * Z /\ Y = ey P * Z.
  (** add-2008-bbjlp with a = -1 *)
  Lemma rep_add X1 Y1 Z1 X2 Y2 Z2 P Q A B C D E F' G :
    rep (X1, Y1, Z1) P -> rep (X2, Y2, Z2) Q ->
    A = Z1 * Z2 -> B = A * A -> C = X1 * X2 -> D = Y1 * Y2 -> E = d * C * D -> F' = B - E -> G = B + E ->
    rep (A * F' * ((X1 + Y1) * (X2 + Y2) - C - D), A * G * (D + C), F' * G) (eadd P Q).
  Proof.
    intros [NZ1 [EX1 EY1]] [NZ2 [EX2 EY2]] -> -> -> -> -> -> ->. cbn [rep eadd mk_ept ex ey]. unfold addx, addy.
    pose proof (den_plus _ _ _ _ (ept_on P) (ept_on Q)) as HP. pose proof (den_minus _ _ _ _ (ept_on P) (ept_on Q)) as HM.
    set (x1 := ex P) in *. set (y1 := ey P) in *. set (x2 := ex Q) in *. set (y2 := ey Q) in *. clearbody x1 y1 x2 y2. subst X1 Y1 X2 Y2.
    assert (EF : Z1 * Z2 * (Z1 * Z2) - d * (x1 * Z1 * (x2 * Z2)) * (y1 * Z1 * (y2 * Z2)) = (Z1 * Z2) * (Z1 * Z2) * (1 - d * x1 * x2 * y1 * y2)) by ring.
    assert (EG : Z1 * Z2 * (Z1 * Z2) + d * (x1 * Z1 * (x2 * Z2)) * (y1 * Z1 * (y2 * Z2)) = (Z1 * Z2) * (Z1 * Z2) * (1 + d * x1 * x2 * y1 * y2)) by ring.
    rewrite EF, EG. split; [repeat apply f_mul_nz; assumption|]. split; field; assumption.
  Qed.
End Ed.
