(** EdwardsP.v -- the Edwards curve over a prime field as the interface crypto/ecpoint.go and onsign/utils.go use:
    elliptic.Curve on big.Int coordinates (decred/edwards, an external module whose source is not in /repo), point
    compression and decompression (agl/ed25519/edwards25519, also external).  Parameters are variables here; Ed25519.v
    supplies the numbers. *)
From Verif Require Import Base BigInt NumTh Euler Curve Onsign OnsignEnc FieldP EdGroup AbGroup.
From Coq Require Import Znumtheory Field FinFun.

(** the weak reduction used while multiplying points *)
Section Proj.
  Variable red : Z -> Z.
  Variable d : Z.
  Definition proj : Type := (Z * Z * Z)%type.
  (** add-2008-bbjlp, a = -1: complete *)
  Definition padd (s t : proj) : proj :=
    let '(X1, Y1, Z1) := s in let '(X2, Y2, Z2) := t in
    let A := red (Z1 * Z2) in let B := red (A * A) in let C := red (X1 * X2) in let D := red (Y1 * Y2) in
    let E := red (red (d * C) * D) in let F := B - E in let G := B + E in
    (red (red (A * F) * (red ((X1 + Y1) * (X2 + Y2)) - C - D)), red (red (A * G) * (D + C)), red (F * G)).
  (** double and add, most significant bit first *)
  Fixpoint pmul (s : proj) (k : positive) : proj :=
    match k with
    | xH => s
    | xO k => let t := pmul s k in padd t t
    | xI k => let t := pmul s k in padd (padd t t) s
    end.
End Proj.

Lemma order_arith (n p : Z) (len : nat) : 8 < n -> Z.of_nat len <= 2 * p -> p < 8 * n -> (8 < Z.to_nat n)%nat /\ (len < 16 * Z.to_nat n)%nat.
Proof. lia. Qed.
Lemma order_arith2 (n : Z) (len : nat) : 8 < n -> len = (8 * Z.to_nat n)%nat -> Z.of_nat len = 8 * n.
Proof. lia. Qed.
Lemma lt_trans8 (n b : Z) : 8 < n < b -> 8 < n /\ 0 <= n. Proof. lia. Qed.
Section Edw.
  Variables (p n d i gx gy : Z).
  Variable red : Z -> Z.

  Notation F := (fp p).
  Definition fdec : forall x y : F, {x = y} + {x <> y} := fp_dec p.
  Definition f0 : F := fz p 0.
  Definition f1 : F := fz p 1.
  Definition dd : F := fz p d.

  (** edwards25519.FeFromBytes of bigIntToEncodedBytes: 32 bytes, top bit dropped, taken mod p *)
  Definition fe (z : Z) : Z := (of_le (big_enc z) mod 2 ^ 255) mod p.
  Definition aff (t : proj) : point :=
    let '(X, Y, Z) := t in (fv p (f_div p (fz p X) (fz p Z)), fv p (f_div p (fz p Y) (fz p Z))).
  Definition edw_on (x y : Z) : bool := onb F f1 (f_add p) (f_mul p) (f_sub p) fdec dd (fz p (fe x)) (fz p (fe y)).
  Definition edw_smul (P : point) (k : Z) : point :=
    match k with Zpos e => aff (pmul red d (fe (px P), fe (py P), 1) e) | _ => (0, 1) end.
  (** tss/curve.go 24-32: tss.Edwards(), as crypto/ecpoint.go uses it *)
  Definition edw : curve := {|
    c_on := edw_on;
    c_add := fun P Q =>
      (fv p (addx F f1 (f_add p) (f_mul p) (f_div p) dd (fz p (fe (px P))) (fz p (fe (py P))) (fz p (fe (px Q))) (fz p (fe (py Q)))),
       fv p (addy F f1 (f_add p) (f_mul p) (f_sub p) (f_div p) dd (fz p (fe (px P))) (fz p (fe (py P))) (fz p (fe (px Q))) (fz p (fe (py Q)))));
    c_smul := edw_smul;
    c_bmul := fun k => edw_smul (gx, gy) k;
    c_g := (gx, gy);
    c_n := n;
    c_id := (0, 1);
    c_canon := fun P => edw_on (px P) (py P) = true /\ 0 <= px P < p /\ 0 <= py P < p |}.
  (** the Edwards library as onsign/utils.go uses it; ExtendedGroupElement.FromBytes:
      x = u v^3 (u v^7)^((p-5)/8) with u = y^2 - 1, v = d y^2 + 1; corrected by sqrt(-1); its parity made the top bit *)
  Definition fix_sign (s : bool) (x : Z) : Z := if Bool.eqb (Z.odd x) s then x else (- x) mod p.
  Definition root (u v : Z) : Z := (u * v * v * v * powm (u * v ^ 7) ((p - 5) / 8) p) mod p.
  Definition edw_dec (b : bytes) : option point :=
    let y := (of_le b mod 2 ^ 255) mod p in
    let u := (y * y - 1) mod p in
    let v := (d * y * y + 1) mod p in
    let x := root u v in
    let s := 2 ^ 255 <=? of_le b mod 2 ^ 256 in
    if (x * x * v - u) mod p =? 0 then Some (fix_sign s x, y)
    else if (x * x * v + u) mod p =? 0 then Some (fix_sign s ((x * i) mod p), y)
    else None.
  Definition edwlib : edlib := {|
    ed_p := p;
    ed_neg := fun P => ((- px P) mod p, py P);
    ed_dec := edw_dec |}.

  (** ** Facts *)
  Hypothesis PR : prime p.
  Hypothesis P5 : p mod 8 = 5.
  Hypothesis PB : p < 2 ^ 255.
  Hypothesis I2 : (i * i + 1) mod p = 0.
  Hypothesis DP : cong p (d ^ ((p - 1) / 2)) (- 1).
  Hypothesis RED : forall x, cong p (red x) x.

  Definition ii : F := fz p i.
  Definition FT : field_theory f0 f1 (f_add p) (f_mul p) (f_sub p) (f_opp p) (f_div p) (f_inv p) (@eq F) := fp_field p PR.
  Add Field Fpf : FT.
  Declare Scope q_scope. Delimit Scope q_scope with q. 
  Notation "0" := f0 : q_scope. Notation "1" := f1 : q_scope. Infix "+" := (f_add p) : q_scope. Infix "*" := (f_mul p) : q_scope.
  Infix "-" := (f_sub p) : q_scope. Infix "/" := (f_div p) : q_scope. Notation "- x" := (f_opp p x) : q_scope.
  Notation z := (fz p).


  Lemma p2 : 5 <= p.
  Proof. pose proof (prime_ge_2 _ PR). pose proof (Z.div_mod p 8 ltac:(lia)). pose proof (Z.mod_pos_bound p 8 ltac:(lia)). lia. Qed.
  Lemma p_form : p = 8 * ((p - 5) / 8) + 5 /\ 0 <= (p - 5) / 8.
  Proof.
    pose proof p2. pose proof (Z.div_mod p 8 ltac:(lia)) as D. rewrite P5 in D.
    assert (E : (p - 5) / 8 = p / 8) by (replace (p - 5) with ((p / 8) * 8) by lia; apply Z.div_mul; lia).
    rewrite E. split; [lia|]. apply Z.div_pos; lia.
  Qed.
  Lemma p_half : (p - 1) / 2 = 4 * ((p - 5) / 8) + 2.
  Proof. destruct p_form as [E N]. set (k := (p - 5) / 8) in *. clearbody k. replace (p - 1) with ((4 * k + 2) * 2) by lia. apply Z.div_mul. lia. Qed.
  Lemma p_odd : Z.odd p = true.
  Proof. destruct p_form as [E N]. rewrite E. set (k := (p - 5) / 8). replace (8 * k + 5) with (1 + 2 * (4 * k + 2)) by lia. rewrite Z.odd_add_mul_2. reflexivity. Qed.
  Lemma z_cong a b : cong p a b -> z a = z b.
  Proof. intro H. apply fz_mod. apply cong_eq; [pose proof p2; lia|exact H]. Qed.
  Lemma cong_z a b : z a = z b -> cong p a b.
  Proof. intro H. apply fz_inj in H. apply cong_eq; [pose proof p2; lia|exact H]. Qed.
  Lemma FID : forall x y : F, (x * y)%q = f0 -> x = f0 \/ y = f0. Proof. exact (f_integral p PR). Qed.
  Lemma FTWO : (1 + 1)%q <> f0.
  Proof. unfold f1, f0. rewrite <- fz_add. intro E. apply fz_inj in E. pose proof p2. rewrite Z.mod_small, Zmod_0_l in E by lia. discriminate. Qed.
  Lemma FI2 : (ii * ii)%q = (- (1))%q.
  Proof. unfold ii, f1. rewrite <- fz_mul, <- fz_opp. apply z_cong. exists ((i * i + 1) / p). pose proof p2. pose proof (Z.div_mod (i * i + 1) p ltac:(lia)). lia. Qed.
  Lemma FDNS : forall x : F, (x * x)%q <> dd.
  Proof.
    intros x E. pose proof p2 as B. destruct p_form as [K N]. assert (E' : cong p (fv p x * fv p x) d) by (apply cong_z; rewrite fz_mul, !fz_fv; exact E).
    pose proof DP as D. rewrite p_half in D. set (k := (p - 5) / 8) in *. clearbody k.
    destruct (fdec x f0) as [Z0|NZ].
    - assert (Y : cong p d 0). { rewrite <- E'. rewrite Z0. cbn [fv f0 fz]. rewrite Zmod_0_l. reflexivity. }
      rewrite (cong_pow p _ _ _ Y) in D. rewrite Z.pow_0_l in D by lia. destruct D as [q Hq]. nia.
    - pose proof (f_fermat p PR x NZ) as Fm. apply cong_z in Fm. rewrite <- (cong_pow p _ _ _ E') in D.
      rewrite Z.pow_mul_l, <- Z.pow_add_r in D by lia. replace (4 * k + 2 + (4 * k + 2)) with (p - 1) in D by lia. rewrite Fm in D. destruct D as [q Hq]. nia.
  Qed.

  Notation E := (ept F f1 (f_add p) (f_mul p) (f_sub p) fdec dd).
  Notation ex := (ex F f1 (f_add p) (f_mul p) (f_sub p) fdec dd).
  Notation ey := (ey F f1 (f_add p) (f_mul p) (f_sub p) fdec dd).
  Notation on' := (EdGroup.on F f1 (f_add p) (f_mul p) (f_sub p) dd).
  Definition eadd' : E -> E -> E := eadd F f0 f1 (f_add p) (f_mul p) (f_sub p) (f_opp p) (f_div p) (f_inv p) FT FID fdec dd ii FTWO FI2 FDNS.
  Definition ezero' : E := ezero F f0 f1 (f_add p) (f_mul p) (f_sub p) (f_opp p) (f_div p) (f_inv p) FT fdec dd.
  Definition eneg' : E -> E := eneg F f0 f1 (f_add p) (f_mul p) (f_sub p) (f_opp p) (f_div p) (f_inv p) FT fdec dd.
  Notation nm' := (nm E eadd' ezero').
  Lemma e_comm P Q : eadd' P Q = eadd' Q P. Proof. apply eadd_comm. Qed.
  Lemma e_assoc P Q R : eadd' (eadd' P Q) R = eadd' P (eadd' Q R). Proof. apply eadd_assoc. Qed.
  Lemma e_id P : eadd' ezero' P = P. Proof. apply eadd_0_l. Qed.
  Lemma e_inv P : eadd' P (eneg' P) = ezero'. Proof. apply eadd_neg. Qed.
  Lemma e_eq (P Q : E) : ex P = ex Q -> ey P = ey Q -> P = Q. Proof. apply ept_eq. Qed.
  Lemma e_on (P : E) : on' (ex P) (ey P). Proof. apply ept_on. Qed.

  (** ** Raw coordinates and curve points *)
  Definition pt_of (P : E) : point := (fv p (ex P), fv p (ey P)).
  Definition isp (P : point) (Q : E) : Prop := z (fe (px P)) = ex Q /\ z (fe (py P)) = ey Q.
  Lemma fe_range a : 0 <= fe a < p. Proof. pose proof p2. apply Z.mod_pos_bound. lia. Qed.
  Lemma fe_small a : 0 <= a < p -> fe a = a.
  Proof.
    intro H. pose proof PB. unfold fe. rewrite big_enc_small by (split; [lia|]; apply Z.lt_trans with (2 ^ 255); [lia|reflexivity]).
    rewrite of_le_le_fixed_small by (rewrite pow256_32; split; [lia|]; apply Z.lt_trans with (2 ^ 255); [lia|reflexivity]).
    rewrite (Z.mod_small a (2 ^ 255)) by lia. apply Z.mod_small. lia.
  Qed.
  Lemma isp_pt_of Q : isp (pt_of Q) Q.
  Proof. unfold isp, pt_of, px, py. cbn [fst snd]. rewrite !fe_small by (apply fv_range; exact PR). rewrite !fz_fv. auto. Qed.
  Lemma isp_inj P Q Q' : isp P Q -> isp P Q' -> Q = Q'. Proof. intros [A B] [A' B']. apply e_eq; congruence. Qed.
  Lemma on_isp P : Curve.on edw P = true -> exists Q, isp P Q.
  Proof. unfold Curve.on. cbn [c_on edw]. unfold edw_on. intro H. exists (Ept F f1 (f_add p) (f_mul p) (f_sub p) fdec dd _ _ H). split; reflexivity. Qed.
  Lemma isp_edw_on P Q : isp P Q -> edw_on (px P) (py P) = true.
  Proof. intros [A B]. unfold edw_on. rewrite A, B. apply eon. Qed.
  Lemma isp_on P Q : isp P Q -> Curve.on edw P = true.
  Proof. intro H. apply (isp_edw_on P Q H). Qed.
  Lemma canon_pt_of Q : c_canon edw (pt_of Q).
  Proof.
    generalize (isp_pt_of Q). assert (R : 0 <= px (pt_of Q) < p /\ 0 <= py (pt_of Q) < p) by (split; apply fv_range; exact PR).
    generalize dependent (pt_of Q). intros P R I. split; [exact (isp_edw_on P Q I)|exact R].
  Qed.
  Lemma canon_isp P : c_canon edw P -> exists Q, isp P Q /\ P = pt_of Q.
  Proof.
    intros [A [X Y]]. destruct (on_isp P A) as [Q I]. exists Q. split; [exact I|]. destruct I as [I1 I2']. unfold pt_of. rewrite <- I1, <- I2'.
    rewrite !fe_small by assumption. rewrite !fv_fz by assumption. destruct P; reflexivity.
  Qed.
  Lemma id_pt : (0, 1) = pt_of ezero'.
  Proof. pose proof p2. unfold pt_of, ezero', ezero, mk_ept. cbn [EdGroup.ex EdGroup.ey]. unfold f0, f1. rewrite !fv_fz by lia. reflexivity. Qed.
  Lemma add_pt P Q A B : isp P A -> isp Q B -> c_add edw P Q = pt_of (eadd' A B).
  Proof. intros [X1 Y1] [X2 Y2]. cbn [c_add edw]. rewrite X1, Y1, X2, Y2. reflexivity. Qed.

  Definition zt (t : proj) : F * F * F := let '(X, Y, Z) := t in (z X, z Y, z Z).
  Notation rep' := (rep F f0 f1 (f_add p) (f_mul p) (f_sub p) fdec dd).
  Lemma z_red a : z (red a) = z a. Proof. apply z_cong, RED. Qed.
  Lemma padd_rep s t A B : rep' (zt s) A -> rep' (zt t) B -> rep' (zt (padd red d s t)) (eadd' A B).
  Proof.
    destruct s as [[X1 Y1] Z1], t as [[X2 Y2] Z2]. intros HA HB. cbn [zt] in HA, HB.
    unfold padd. cbv zeta. cbn [zt]. rewrite ?z_red, ?fz_mul, ?z_red, ?fz_mul, ?fz_sub, ?fz_add, ?fz_mul, ?z_red, ?fz_mul, ?fz_add, ?z_red, ?fz_mul, ?z_red, ?fz_mul, ?z_red, ?fz_mul.
    eapply (rep_add F f0 f1 (f_add p) (f_mul p) (f_sub p) (f_opp p) (f_div p) (f_inv p) FT FID fdec dd ii FTWO FI2 FDNS _ _ _ _ _ _ A B); eauto.
  Qed.
  Lemma pmul_rep s A k : rep' (zt s) A -> rep' (zt (pmul red d s k)) (nm' (Pos.to_nat k) A).
  Proof.
    intro H. induction k as [k IH|k IH|]; cbn [pmul].
    - replace (Pos.to_nat k~1) with (1 + (Pos.to_nat k + Pos.to_nat k))%nat by lia. rewrite !(nm_add E eadd' ezero' e_assoc e_id).
      change (nm E eadd' ezero' 1 A) with (eadd' A ezero'). rewrite (e_comm A ezero'), e_id, e_comm. apply padd_rep; [|exact H]. apply padd_rep; exact IH.
    - replace (Pos.to_nat k~0) with (Pos.to_nat k + Pos.to_nat k)%nat by lia. rewrite !(nm_add E eadd' ezero' e_assoc e_id). apply padd_rep; exact IH.
    - change (Pos.to_nat 1) with 1%nat. change (nm E eadd' ezero' 1 A) with (eadd' A ezero'). rewrite (e_comm A ezero'), e_id. exact H.
  Qed.
  Lemma aff_rep t A : rep' (zt t) A -> aff t = pt_of A.
  Proof.
    destruct t as [[X Y] Z]. cbn [zt rep aff]. intros [N [EX EY]]. unfold pt_of. rewrite EX, EY.
    f_equal; f_equal; field; exact N.
  Qed.
  Lemma init_rep P A : isp P A -> rep' (zt (fe (px P), fe (py P), 1)) A.
  Proof.
    intros [X Y]. cbn [zt rep]. rewrite X, Y. split; [exact (F_1_neq_0 FT)|]. change (z 1) with f1. split; ring.
  Qed.
  Lemma smul_pt P A k : isp P A -> 0 <= k -> c_smul edw P k = pt_of (nm' (Z.to_nat k) A).
  Proof.
    intros H K. cbn [c_smul edw]. unfold edw_smul. destruct k as [|e|e]; [rewrite id_pt; reflexivity| |lia].
    cbn [Z.to_nat]. apply aff_rep, pmul_rep, init_rep, H.
  Qed.

  (** ** The group order *)
  Lemma v_nz y : (1 + dd * (y * y))%q <> f0.
  Proof.
    intro H. destruct (fdec y f0) as [->|N].
    - apply (F_1_neq_0 FT). rewrite <- H. ring.
    - apply (FDNS (ii / y)%q). assert (X : (ii / y * (ii / y))%q = ((ii * ii) / (y * y))%q) by (field; exact N). rewrite X, FI2.
      assert (Y : (- (1))%q = (dd * (y * y))%q). { assert (Q : (dd * (y * y))%q = ((1 + dd * (y * y)) - 1)%q) by ring. rewrite Q, H. ring. }
      rewrite Y. field. exact N.
  Qed.
  Lemma sq_eq (a b : F) : (a * a)%q = (b * b)%q -> a = b \/ a = (- b)%q.
  Proof.
    intro H. assert (X : ((a - b) * (a + b))%q = f0). { assert (Y : ((a - b) * (a + b))%q = (a * a - b * b)%q) by ring. rewrite Y, H. ring. }
    apply FID in X. destruct X as [X|X]; [left|right].
    - assert (Y : a = (a - b + b)%q) by ring. rewrite Y, X. ring.
    - assert (Y : a = (a + b - b)%q) by ring. rewrite Y, X. ring.
  Qed.
  Lemma opp_parity (a : F) : a <> f0 -> Z.odd (fv p (- a)%q) = negb (Z.odd (fv p a)).
  Proof.
    intro N. pose proof (fv_range p PR a) as R. assert (fv p a <> 0). { intro X. apply N. rewrite <- (fz_fv p a), X. reflexivity. }
    assert (Y : fv p (- a)%q = p - fv p a).
    { cbn [fv f_opp fz]. symmetry. apply (Zmod_unique_full _ _ (-1)); [left; lia|lia]. }
    rewrite Y, Z.odd_sub, p_odd. reflexivity.
  Qed.
  Lemma same_sign (a b : F) : (a * a)%q = (b * b)%q -> Z.odd (fv p a) = Z.odd (fv p b) -> a = b.
  Proof.
    intros H S. destruct (sq_eq a b H) as [X|X]; [exact X|]. destruct (fdec b f0) as [->|N]; [rewrite X; ring|].
    rewrite X, (opp_parity b N) in S. destruct (Z.odd (fv p b)); discriminate.
  Qed.
  Lemma on_x x y : on' x y -> (x * x * (1 + dd * (y * y)))%q = (y * y - 1)%q.
  Proof. unfold EdGroup.on. intro H. assert (X : (x * x * (1 + dd * (y * y)))%q = (1 + dd * (x * x) * (y * y) - 1 + x * x)%q) by ring. rewrite X, <- H. ring. Qed.
  Lemma f_cancel (a b c : F) : c <> f0 -> (a * c)%q = (b * c)%q -> a = b.
  Proof. intros N H. assert (X : a = (a * c / c)%q) by (field; exact N). rewrite X, H. field. exact N. Qed.
  Lemma by_y_sign (P Q : E) : ey P = ey Q -> Z.odd (fv p (ex P)) = Z.odd (fv p (ex Q)) -> P = Q.
  Proof.
    intros Y S. apply e_eq; [|exact Y]. apply same_sign; [|exact S]. apply (f_cancel _ _ _ (v_nz (ey P))).
    rewrite (on_x _ _ (e_on P)). rewrite Y. rewrite (on_x _ _ (e_on Q)). reflexivity.
  Qed.
  Definition e_all : list E := nodup (ept_dec F f1 (f_add p) (f_mul p) (f_sub p) fdec dd)
    (flat_map (fun x => flat_map (fun y => match Bool.bool_dec (onb F f1 (f_add p) (f_mul p) (f_sub p) fdec dd x y) true with
                                           | left H => [Ept F f1 (f_add p) (f_mul p) (f_sub p) fdec dd x y H] | right _ => [] end) (fp_all p)) (fp_all p)).
  Lemma e_all_in P : In P e_all.
  Proof.
    apply nodup_In. apply in_flat_map. exists (ex P). split; [apply in_fp_all, PR|]. apply in_flat_map. exists (ey P). split; [apply in_fp_all, PR|].
    destruct (Bool.bool_dec _ true) as [H|H]; [left; apply e_eq; reflexivity|]. exfalso. apply H, eon.
  Qed.
  Lemma e_all_nodup : NoDup e_all. Proof. apply NoDup_nodup. Qed.
  Lemma e_all_len : Z.of_nat (length e_all) <= 2 * p.
  Proof.
    assert (X : (length (map (fun P => (ey P, Z.odd (fv p (ex P)))) e_all) <= length (list_prod (fp_all p) [true; false]))%nat).
    { apply NoDup_incl_length.
      - apply Injective_map_NoDup; [|apply e_all_nodup]. intros P Q H. inversion H. now apply by_y_sign.
      - intros [y b] _. apply in_prod; [apply in_fp_all, PR|]. destruct b; cbn; auto. }
    rewrite map_length, prod_length in X. cbn [length] in X. pose proof (fp_all_len p PR). lia.
  Qed.

  Lemma on_Z x y : (y * y - x * x - 1 - d * (x * x) * (y * y)) mod p = 0 -> on' (z x) (z y).
  Proof.
    intro H. pose proof p2. apply Zmod_divide in H; [|lia]. unfold EdGroup.on. unfold dd, f1. rewrite <- !fz_mul, <- fz_sub, <- fz_add. apply z_cong.
    destruct H as [q Hq]. exists q. lia.
  Qed.
  Lemma mod0_z a : (a mod p =? 0) = true <-> z a = f0.
  Proof. pose proof p2. rewrite Z.eqb_eq. unfold f0. split; intro H'; [apply fz_mod; rewrite Zmod_0_l; exact H'|]. apply fz_inj in H'. rewrite Zmod_0_l in H'. exact H'. Qed.
  Lemma edw_on_iff x y : 0 <= x < p -> 0 <= y < p -> edw_on x y = true <-> on' (z x) (z y).
  Proof. intros X Y. unfold edw_on. rewrite !fe_small by assumption. apply onb_on. Qed.
  Lemma on_iff x y : on' (z x) (z y) <-> (y * y - x * x - 1 - d * (x * x) * (y * y)) mod p = 0.
  Proof.
    split; [|apply on_Z]. intro H0. unfold EdGroup.on, dd, f1 in H0. rewrite <- !fz_mul, <- fz_sub, <- fz_add in H0. apply cong_z in H0.
    apply Zdivide_mod. destruct H0 as [q Hq]. exists q. lia.
  Qed.
  Lemma canon_iff P : c_canon edw P <->
    0 <= px P < p /\ 0 <= py P < p /\ (py P * py P - px P * px P - 1 - d * (px P * px P) * (py P * py P)) mod p = 0.
  Proof.
    cbn [c_canon edw]. split.
    - intros [H0 [X Y]]. split; [exact X|]. split; [exact Y|]. apply on_iff. apply (proj1 (edw_on_iff _ _ X Y)). exact H0.
    - intros [X [Y H0]]. split; [|split; assumption]. apply (proj2 (edw_on_iff _ _ X Y)). apply on_iff. exact H0.
  Qed.
  Lemma add_spec P Q R t : c_canon edw P -> c_canon edw Q -> R = c_add edw P Q -> t = d * px P * px Q * py P * py Q ->
    c_canon edw R /\ (1 + t) mod p <> 0 /\ (1 - t) mod p <> 0 /\
    (px R * (1 + t) - (px P * py Q + px Q * py P)) mod p = 0 /\
    (py R * (1 - t) - (py P * py Q + px P * px Q)) mod p = 0.
  Proof.
    intros HP HQ DR Dt. pose proof p2.
    destruct (canon_isp P HP) as [A [IA EA]]. destruct (canon_isp Q HQ) as [B [IB EB]].
    assert (RR : R = pt_of (eadd' A B)) by (rewrite DR; apply (add_pt _ _ _ _ IA IB)). split; [rewrite RR; apply canon_pt_of|]. clear DR.
    assert (Zx : z (px P) = ex A /\ z (py P) = ey A) by (rewrite EA; unfold pt_of, px, py; cbn [fst snd]; rewrite !fz_fv; auto).
    assert (Zy : z (px Q) = ex B /\ z (py Q) = ey B) by (rewrite EB; unfold pt_of, px, py; cbn [fst snd]; rewrite !fz_fv; auto).
    assert (Zt : z t = (dd * ex A * ex B * ey A * ey B)%q).
    { rewrite Dt, !fz_mul. fold dd. destruct Zx as [-> ->], Zy as [-> ->]. reflexivity. }
    clear Dt.
    pose proof (den_plus F f0 f1 (f_add p) (f_mul p) (f_sub p) (f_opp p) (f_div p) (f_inv p) FT FID fdec dd ii FTWO FI2 FDNS _ _ _ _ (e_on A) (e_on B)) as DP'.
    pose proof (den_minus F f0 f1 (f_add p) (f_mul p) (f_sub p) (f_opp p) (f_div p) (f_inv p) FT FID fdec dd ii FTWO FI2 FDNS _ _ _ _ (e_on A) (e_on B)) as DM'.
    rewrite <- Zt in DP', DM'.
    assert (N1 : z (1 + t) <> f0) by (rewrite fz_add; exact DP'). assert (N2 : z (1 - t) <> f0) by (rewrite fz_sub; exact DM').
    split; [intro K; apply N1; apply mod0_z; apply Z.eqb_eq, K|]. split; [intro K; apply N2; apply mod0_z; apply Z.eqb_eq, K|].
    assert (EX : z (px R) = ex (eadd' A B)) by (rewrite RR; unfold pt_of, px; cbn [fst]; apply fz_fv).
    assert (EY : z (py R) = ey (eadd' A B)) by (rewrite RR; unfold pt_of, py; cbn [snd]; apply fz_fv).
    unfold eadd', eadd, mk_ept in EX, EY. cbn [EdGroup.ex EdGroup.ey] in EX, EY. unfold addx in EX. unfold addy in EY. rewrite <- Zt in EX, EY.
    destruct Zx as [Z1 Z2], Zy as [Z3 Z4].
    split; apply Z.eqb_eq, mod0_z.
    - rewrite fz_sub, fz_mul, (fz_add p 1 t), (fz_add p (px P * py Q)), !fz_mul, Z1, Z2, Z3, Z4, EX. change (z 1) with f1. field. exact DP'.
    - rewrite fz_sub, fz_mul, (fz_sub p 1 t), (fz_add p (py P * py Q)), !fz_mul, Z1, Z2, Z3, Z4, EY. change (z 1) with f1. field. exact DM'.
  Qed.
  (** ** Decompression *)
  Lemma x_on (x y : F) : (x * x * (1 + dd * (y * y)))%q = (y * y - 1)%q -> on' x y.
  Proof.
    intro H. unfold EdGroup.on. assert (X : (y * y)%q = (y * y - 1 + 1)%q) by ring. rewrite X at 1. rewrite <- H. ring.
  Qed.
  Lemma z_v y : z ((d * y * y + 1) mod p) = (1 + dd * (z y * z y))%q.
  Proof. pose proof p2. rewrite (z_cong _ _ (cong_mod p _ ltac:(lia))). rewrite fz_add, !fz_mul. fold dd. change (z 1) with f1. ring. Qed.
  Lemma z_u y : z ((y * y - 1) mod p) = (z y * z y - 1)%q.
  Proof. pose proof p2. rewrite (z_cong _ _ (cong_mod p _ ltac:(lia))). rewrite fz_sub, !fz_mul. change (z 1) with f1. ring. Qed.
  Lemma z_mod a : z (a mod p) = z a. Proof. pose proof p2. apply z_cong, cong_mod. lia. Qed.
  Lemma fix_range s x : 0 <= x < p -> 0 <= fix_sign s x < p.
  Proof. intro. pose proof p2. unfold fix_sign. destruct (Bool.eqb _ _); [assumption|]. apply Z.mod_pos_bound. lia. Qed.
  Lemma fix_sq s x : (z (fix_sign s x) * z (fix_sign s x))%q = (z x * z x)%q.
  Proof. unfold fix_sign. destruct (Bool.eqb _ _); [reflexivity|]. rewrite z_mod, fz_opp. ring. Qed.
  Lemma canon_intro x y : 0 <= x < p -> 0 <= y < p -> on' (z x) (z y) -> c_canon edw (x, y).
  Proof.
    intros X Y H. cbn [c_canon edw]. unfold px, py. cbn [fst snd]. split; [|split; assumption]. unfold edw_on. rewrite !fe_small by assumption. apply onb_on. exact H.
  Qed.
  Lemma root_range u v : 0 <= root u v < p. Proof. pose proof p2. apply Z.mod_pos_bound. lia. Qed.
  Lemma cong_mul_ n' a b c e : cong n' a b -> cong n' c e -> cong n' (a * c) (b * e).
  Proof. intros H1 H2. rewrite H1, H2. reflexivity. Qed.
  (** u = x^2 v gives root = +-x or +-x/sqrt(-1) *)
  Lemma root_sq x u v : z v <> f0 -> z x <> f0 -> cong p u (x * x * v) -> cong p (root u v * root u v) (x * x) \/ cong p (root u v * root u v) (- (x * x)).
  Proof.
    intros NV NX U. pose proof p2 as B. destruct p_form as [K N]. set (k := (p - 5) / 8) in *.
    assert (R : cong p (root u v) (x ^ (2 * k + 2))).
    { unfold root. rewrite cong_mod by lia. fold k. rewrite powm_eq by lia. rewrite cong_mod by lia.
      assert (E1 : cong p (u * v ^ 7) (x * x * v ^ 8)).
      { rewrite U. replace (x * x * v ^ 8) with (x * x * v * v ^ 7) by ring. reflexivity. }
      rewrite (cong_pow p _ _ k E1). rewrite U.
      rewrite Z.pow_mul_l, Z.pow_mul_l, <- Z.pow_mul_r by lia.
      replace (x * x * v * v * v * v * (x ^ k * x ^ k * v ^ (8 * k))) with ((x ^ k * x ^ k * x * x) * (v ^ (8 * k) * (v * v * v * v))) by ring.
      assert (FV : cong p (v ^ (8 * k) * (v * v * v * v)) 1).
      { replace (v * v * v * v) with (v ^ 4) by ring. rewrite <- Z.pow_add_r by lia. replace (8 * k + 4) with (p - 1) by lia.
        apply fermat; [exact PR|]. apply Zgcd_1_rel_prime, rel_prime_sym, prime_rel_prime; [exact PR|]. intro D. apply NV. now apply fz_0_div. }
      rewrite FV, Z.mul_1_r. replace (2 * k + 2) with (k + k + 1 + 1) by lia. rewrite !Z.pow_add_r by lia. rewrite !Z.pow_1_r. reflexivity. }
    set (w := x ^ (4 * k + 2)).
    assert (R2 : cong p (root u v * root u v) (w * (x * x))).
    { rewrite R. subst w. replace (x * x) with (x ^ 2) by ring. rewrite <- !Z.pow_add_r by lia. replace (2 * k + 2 + (2 * k + 2)) with (4 * k + 2 + 2) by lia. reflexivity. }
    assert (W2 : cong p (w * w) 1).
    { subst w. rewrite <- Z.pow_add_r by lia. replace (4 * k + 2 + (4 * k + 2)) with (p - 1) by lia.
      apply fermat; [exact PR|]. apply Zgcd_1_rel_prime, rel_prime_sym, prime_rel_prime; [exact PR|]. intro D. apply NX. now apply fz_0_div. }
    clearbody w. assert (D : (p | (w - 1) * (w + 1))). { destruct W2 as [q Hq]. exists q. lia. }
    apply prime_mult in D; [|exact PR]. destruct D as [D|D]; [left|right]; rewrite R2.
    - assert (Wc : cong p w 1) by exact D. rewrite Wc. rewrite Z.mul_1_l. reflexivity.
    - assert (Wc : cong p w (-1)). { destruct D as [q Hq]. exists q. lia. } rewrite Wc. replace (-1 * (x * x)) with (- (x * x)) by ring. reflexivity.
  Qed.

  Theorem edw_ed_laws : ed_laws edw edwlib.
  Proof.
    pose proof p2 as B5. constructor.
    - cbn [ed_p edwlib]. pose proof PB. lia.
    - intros P [_ H]. exact H.
    - intros P HP. destruct (canon_isp P HP) as [Q [_ EQ]]. destruct HP as [_ [RX RY]]. cbn [ed_dec edwlib].
      pose proof PB as PB'. unfold edw_dec. cbv zeta.
      assert (OL : of_le (ge_bytes P) = py P + (if Z.odd (px P) then 2 ^ 255 else 0)) by (apply of_le_ge_bytes; lia).
      assert (Y0 : of_le (ge_bytes P) mod 2 ^ 255 = py P).
      { rewrite OL. destruct (Z.odd (px P)); [|rewrite Z.add_0_r; apply Z.mod_small; lia].
        replace (py P + 2 ^ 255) with (py P + 1 * 2 ^ 255) by ring. rewrite Z_mod_plus_full. apply Z.mod_small. lia. }
      assert (S0 : (2 ^ 255 <=? of_le (ge_bytes P) mod 2 ^ 256) = Z.odd (px P)).
      { change (2 ^ 256) with (2 ^ 255 + 2 ^ 255). rewrite OL. clear OL Y0. assert (P2 : 0 < 2 ^ 255) by reflexivity. set (T := 2 ^ 255) in *. clearbody T.
        destruct (Z.odd (px P)); rewrite Z.mod_small by lia; [apply Z.leb_le; lia|apply Z.leb_gt; lia]. }
      rewrite Y0, S0, (Z.mod_small (py P) p) by lia. clear OL Y0 S0 PB'.
      set (x := px P) in *. set (y := py P) in *.
      assert (EX : z x = ex Q). { subst x. rewrite EQ. unfold pt_of, px. cbn [fst]. apply fz_fv. }
      assert (EY : z y = ey Q). { subst y. rewrite EQ. unfold pt_of, py. cbn [snd]. apply fz_fv. }
      pose proof (on_x _ _ (e_on Q)) as OX. rewrite <- EX, <- EY in OX. rewrite <- z_v, <- z_u in OX.
      set (u := (y * y - 1) mod p) in *. set (v := (d * y * y + 1) mod p) in *.
      assert (VN : z v <> f0) by (subst v; rewrite z_v; apply v_nz).
      assert (U : cong p u (x * x * v)) by (apply cong_z; rewrite !fz_mul; symmetry; exact OX).
      clearbody u v. assert (FIN : forall w, 0 <= w < p -> cong p (w * w) (x * x) -> fix_sign (Z.odd x) w = x).
      { intros w RW HW. pose proof (fix_range (Z.odd x) w RW) as FR.
        assert (Sq : (z (fix_sign (Z.odd x) w) * z (fix_sign (Z.odd x) w))%q = (z x * z x)%q). { rewrite fix_sq. rewrite <- !fz_mul. apply z_cong, HW. }
        assert (E0 : z (fix_sign (Z.odd x) w) = z x).
        { apply same_sign; [exact Sq|]. rewrite !fv_fz by assumption. unfold fix_sign. destruct (Bool.eqb (Z.odd w) (Z.odd x)) eqn:EB; [now apply Bool.eqb_prop|].
          destruct (fdec (z w) f0) as [Zw|Nw].
          { assert (w = 0). { apply (f_equal (fv p)) in Zw. unfold f0 in Zw. rewrite !fv_fz in Zw by lia. exact Zw. } subst w.
            assert (z x = f0). { apply cong_z in HW || idtac. assert (Q0 : (z x * z x)%q = f0) by (rewrite <- fz_mul; unfold f0; apply z_cong; symmetry; exact HW). destruct (FID _ _ Q0); assumption. }
            assert (x = 0). { apply (f_equal (fv p)) in H. unfold f0 in H. rewrite !fv_fz in H by lia. exact H. } rewrite H0 in EB. discriminate. }
          pose proof (opp_parity (z w) Nw) as OP. rewrite <- fz_opp in OP. rewrite (fv_fz p w RW) in OP. cbn [fv fz] in OP. rewrite OP.
          destruct (Z.odd w), (Z.odd x); try reflexivity; discriminate. }
        apply (f_equal (fv p)) in E0. rewrite !fv_fz in E0 by assumption. exact E0. }
      destruct (fdec (z x) f0) as [X0|XN].
      + assert (x = 0). { apply (f_equal (fv p)) in X0. unfold f0 in X0. rewrite !fv_fz in X0 by lia. exact X0. }
        assert (U0 : cong p u 0). { rewrite U, H. reflexivity. }
        assert (RR : root u v = 0). { unfold root. set (pw := powm _ _ _). clearbody pw. assert (cong p (u * v * v * v * pw) 0). { rewrite U0. reflexivity. } apply cong_eq in H0; [|lia]. rewrite Zmod_0_l in H0. exact H0. }
        assert (C1 : ((root u v * root u v * v - u) mod p =? 0) = true).
        { apply Z.eqb_eq. rewrite RR. assert (Q0 : cong p (0 * 0 * v - u) 0) by (rewrite U0; reflexivity). apply cong_eq in Q0; [|lia]. rewrite Zmod_0_l in Q0. exact Q0. }
        rewrite C1, RR. rewrite FIN; [|lia|rewrite H; reflexivity]. subst x y. destruct P; reflexivity.
      + pose proof (root_range u v) as RG. destruct (root_sq x u v VN XN U) as [Hr|Hr].
        * assert (C1 : ((root u v * root u v * v - u) mod p =? 0) = true).
          { apply Z.eqb_eq. assert (Q0 : cong p (root u v * root u v * v - u) 0) by (rewrite Hr, U, Z.sub_diag; reflexivity). apply cong_eq in Q0; [|lia]. rewrite Zmod_0_l in Q0. exact Q0. }
          rewrite C1. rewrite FIN by assumption. subst x y. destruct P; reflexivity.
        * destruct ((root u v * root u v * v - u) mod p =? 0) eqn:C1.
          { exfalso. apply mod0_z in C1. unfold f0 in C1. apply cong_z in C1. rewrite Hr, U in C1.
            assert (Q0 : ((1 + 1) * (z x * z x * z v))%q = f0).
            { assert (W : z (- (x * x) * v - x * x * v) = f0) by (apply z_cong, C1). rewrite fz_sub, !fz_mul, fz_opp, !fz_mul in W.
              assert (W2 : ((1 + 1) * (z x * z x * z v))%q = (- (- (z x * z x) * z v - z x * z x * z v))%q) by ring. rewrite W2, W. ring. }
            apply FID in Q0. destruct Q0 as [Q0|Q0]; [exact (FTWO Q0)|]. apply FID in Q0. destruct Q0 as [Q0|Q0]; [|contradiction]. apply FID in Q0. tauto. }
          assert (C2 : ((root u v * root u v * v + u) mod p =? 0) = true).
          { apply Z.eqb_eq. assert (Q0 : cong p (root u v * root u v * v + u) 0). { rewrite Hr, U. replace (- (x * x) * v + x * x * v) with 0 by ring. reflexivity. } apply cong_eq in Q0; [|lia]. rewrite Zmod_0_l in Q0. exact Q0. }
          rewrite C2. rewrite FIN; [subst x y; destruct P; reflexivity|apply Z.mod_pos_bound; lia|].
          rewrite !cong_mod by lia. apply cong_z. replace (root u v * i * (root u v * i)) with (i * i * (root u v * root u v)) by ring.
          rewrite fz_mul, fz_mul. fold ii. rewrite FI2. rewrite (z_cong _ _ Hr), fz_opp. ring.
    - intros b P. cbn [ed_dec edwlib]. unfold edw_dec. cbv zeta. set (y := (of_le b mod 2 ^ 255) mod p). set (s := 2 ^ 255 <=? of_le b mod 2 ^ 256).
      set (u := (y * y - 1) mod p). set (v := (d * y * y + 1) mod p).
      assert (RY : 0 <= y < p) by (apply Z.mod_pos_bound; lia). pose proof (root_range u v) as RG.
      assert (KEY : forall w, 0 <= w < p -> (z w * z w * z v)%q = z u -> c_canon edw (fix_sign s w, y)).
      { intros w RW HW. apply canon_intro; [apply fix_range; exact RW|exact RY|]. apply x_on. rewrite fix_sq. rewrite <- z_v, <- z_u. exact HW. }
      destruct (_ =? 0) eqn:C1; [intro H; assert (P = (fix_sign s (root u v), y)) as -> by congruence; apply KEY; [exact RG|]|].
      { apply mod0_z in C1. rewrite fz_sub, !fz_mul in C1. assert (Q0 : (z (root u v) * z (root u v) * z v)%q = (z (root u v) * z (root u v) * z v - z u + z u)%q) by ring. rewrite Q0, C1. ring. }
      destruct ((root u v * root u v * v + u) mod p =? 0) eqn:C2; [|discriminate].
      intro H; assert (P = (fix_sign s ((root u v * i) mod p), y)) as -> by congruence; apply KEY; [apply Z.mod_pos_bound; lia|].
      apply mod0_z in C2. rewrite fz_add, !fz_mul in C2. rewrite z_mod, fz_mul. fold ii.
      assert (Q0 : (z (root u v) * ii * (z (root u v) * ii) * z v)%q = ((ii * ii) * (z (root u v) * z (root u v) * z v + z u - z u))%q) by ring. rewrite Q0, C2, FI2. ring.
    - intros P HP. destruct (canon_isp P HP) as [Q [_ EQ]]. cbn [ed_neg edwlib].
      assert (X : ((- px P) mod p, py P) = pt_of (eneg' Q)) by (rewrite EQ; reflexivity). rewrite X. apply canon_pt_of.
    - intros P HP. destruct (canon_isp P HP) as [Q [IQ EQ]]. cbn [ed_neg edwlib].
      assert (X : ((- px P) mod p, py P) = pt_of (eneg' Q)) by (rewrite EQ; reflexivity). rewrite X.
      rewrite (add_pt _ _ _ _ IQ (isp_pt_of _)), e_inv. symmetry. apply id_pt.
  Qed.

  Variable ty : Z.
  Hypothesis TON : on' (z (i * ty)) (z ty).
  Definition tpt : E := mk_ept F f1 (f_add p) (f_mul p) (f_sub p) fdec dd _ _ TON.
  Lemma div_1 (a b c : F) : b = f1 -> a = c -> (a / b)%q = c.
  Proof. intros -> ->. field. exact (F_1_neq_0 FT). Qed.
  Lemma t_order : nm' 8 tpt = ezero' /\ nm' 4 tpt <> ezero'.
  Proof.
    set (U := eadd' tpt tpt). set (V := eadd' U U). set (W := eadd' V V).
    assert (R : forall a, eadd' a ezero' = a) by (intro; rewrite e_comm; apply e_id).
    assert (N4 : nm' 4 tpt = V). { cbn [nm]. rewrite R. subst V U. rewrite !e_assoc. reflexivity. }
    assert (N8 : nm' 8 tpt = W).
    { change 8%nat with (4 + 4)%nat. rewrite (nm_add E eadd' ezero' e_assoc e_id). rewrite N4. reflexivity. }
    assert (X0 : (z (i * ty) * z (i * ty))%q = (- (z ty * z ty))%q).
    { rewrite fz_mul. fold ii. assert (Q : (ii * z ty * (ii * z ty))%q = (ii * ii * (z ty * z ty))%q) by ring. rewrite Q, FI2. ring. }
    assert (UY : ey U = f0).
    { subst U. unfold eadd', eadd, mk_ept, tpt, mk_ept. cbn [EdGroup.ex EdGroup.ey]. unfold addy. rewrite X0.
      assert (Q : (z ty * z ty + - (z ty * z ty))%q = f0) by ring. rewrite Q.
      assert (DM := den_minus F f0 f1 (f_add p) (f_mul p) (f_sub p) (f_opp p) (f_div p) (f_inv p) FT FID fdec dd ii FTWO FI2 FDNS _ _ _ _ TON TON). field. exact DM. }
    assert (UX : (ex U * ex U)%q = (- (1))%q).
    { pose proof (e_on U) as H. unfold EdGroup.on in H. rewrite UY in H. assert (Q : (ex U * ex U)%q = (- (0 * 0 - ex U * ex U))%q) by ring. rewrite Q, H. ring. }
    assert (N1 : f1 <> f0) by exact (F_1_neq_0 FT).
    assert (VX : ex V = f0).
    { subst V. set (u := U) in *. clearbody u. unfold eadd', eadd, mk_ept. cbn [EdGroup.ex EdGroup.ey]. unfold addx. rewrite UY. apply div_1; ring. }
    assert (VY : ey V = (- (1))%q).
    { subst V. set (u := U) in *. clearbody u. unfold eadd', eadd, mk_ept. cbn [EdGroup.ex EdGroup.ey]. unfold addy. rewrite UY, UX. apply div_1; ring. }
    rewrite N8, N4. split.
    - subst W. set (v := V) in *. clearbody v. apply e_eq; unfold eadd', eadd, ezero', ezero, mk_ept; cbn [EdGroup.ex EdGroup.ey]; unfold addx, addy; rewrite VX, VY; apply div_1; ring.
    - intro Q. rewrite Q in VY. unfold ezero', ezero, mk_ept in VY. cbn [EdGroup.ey] in VY. apply FTWO. rewrite VY at 1. ring.
  Qed.

  Hypothesis PN : prime n.
  Hypothesis NB : 8 < n < 2 ^ 253.
  Hypothesis NP : p < 8 * n.
  Hypothesis GR : 0 <= gx < p /\ 0 <= gy < p.
  Hypothesis GON : on' (z gx) (z gy).
  Hypothesis GY : gy <> 1.
  Definition gpt : E := mk_ept F f1 (f_add p) (f_mul p) (f_sub p) fdec dd _ _ GON.
  Lemma g_isp : isp (gx, gy) gpt.
  Proof. unfold isp, px, py. cbn [fst snd]. destruct GR as [A B]. rewrite !fe_small by assumption. split; reflexivity. Qed.
  Lemma g_pt : (gx, gy) = pt_of gpt.
  Proof. unfold pt_of, gpt, mk_ept. cbn [EdGroup.ex EdGroup.ey]. destruct GR as [A B]. rewrite !fv_fz by assumption. reflexivity. Qed.
  Lemma g_nz : gpt <> ezero'.
  Proof. intro H. apply (f_equal pt_of) in H. rewrite <- g_pt, <- id_pt in H. congruence. Qed.
  (** n G = 0, by computation *)
  Definition g_check : bool :=
    match n with
    | Zpos e => let '(X, Y, Z) := pmul red d (gx, gy, 1) e in (X mod p =? 0) && ((Y - Z) mod p =? 0)
    | _ => false end.
  Hypothesis GN : g_check = true.
  Lemma g_order : nm' (Z.to_nat n) gpt = ezero'.
  Proof.
    pose proof GN as H. unfold g_check in H. clear GN. pose proof p2 as B.
    assert (Gg : rep' (zt (gx, gy, 1)) gpt). { pose proof (init_rep _ _ g_isp) as Q. unfold px, py in Q. cbn [fst snd] in Q. rewrite !fe_small in Q by apply GR. exact Q. }
    destruct n as [|e|e]; try discriminate. cbn [Z.to_nat].
    pose proof (pmul_rep _ _ e Gg) as R. destruct (pmul red d (gx, gy, 1) e) as [[X Y] Z]. apply andb_prop in H as [H1 H2]. apply Z.eqb_eq in H1. apply Z.eqb_eq in H2.
    set (A := nm' (Pos.to_nat e) gpt) in *. clearbody A. cbn [zt rep] in R. destruct R as [N [EX EY]].
    assert (X0 : z X = f0) by (apply fz_mod; rewrite Zmod_0_l; exact H1).
    assert (Y0 : z Y = z Z). { apply z_cong. apply Zmod_divide in H2; [|lia]. exact H2. }
    apply e_eq; unfold ezero', ezero, mk_ept; cbn [EdGroup.ex EdGroup.ey]; apply (f_cancel _ _ _ N).
    - rewrite <- EX, X0. ring.
    - rewrite <- EY, Y0. ring.
  Qed.
  Theorem e_order : Z.of_nat (length e_all) = 8 * n.
  Proof.
    destruct t_order as [T8 T4]. destruct (lt_trans8 _ _ NB) as [N8 N0]. destruct (order_arith n p (length e_all) N8 e_all_len NP) as [A1 A2].
    apply (order_arith2 _ _ N8).
    apply (order_8n E eadd' ezero' eneg' e_comm e_assoc e_id e_inv e_all (Z.to_nat n) gpt tpt e_all_nodup e_all_in).
    - rewrite (Z2Nat.id n N0). exact PN.
    - exact A1.
    - exact g_nz.
    - exact g_order.
    - exact T8.
    - exact T4.
    - exact A2.
  Qed.
  Theorem all_points : exists l : list point, NoDup l /\ Z.of_nat (length l) = 8 * n /\ forall P, In P l <-> c_canon edw P.
  Proof.
    exists (map pt_of e_all). split; [|split].
    - apply Injective_map_NoDup; [|apply e_all_nodup]. intros A B H. assert (I := isp_pt_of A). rewrite H in I. exact (isp_inj _ _ _ I (isp_pt_of B)).
    - rewrite map_length. apply e_order.
    - intro P. split.
      + intro I. apply in_map_iff in I as [A [<- _]]. apply canon_pt_of.
      + intro H. destruct (canon_isp P H) as [A [_ ->]]. apply in_map, e_all_in.
  Qed.
  Lemma e_cofactor A : nm' (Z.to_nat (8 * n)) A = ezero'.
  Proof.
    rewrite <- e_order, Nat2Z.id. apply (order_kills E eadd' ezero' eneg' e_comm e_assoc e_id e_inv); [apply e_all_nodup|apply e_all_in].
  Qed.

  Theorem edw_laws : curve_laws edw.
  Proof.
    pose proof p2 as B5.
    constructor.
    - exact PN.
    - exact NB.
    - intros P [H _]. exact H.
    - cbn [c_id edw]. rewrite id_pt. apply canon_pt_of.
    - cbn [c_g edw]. rewrite g_pt. apply canon_pt_of.
    - intros P [_ [X Y]]. assert (2 ^ 255 < 2 ^ 256) by reflexivity. pose proof PB. lia.
    - intros P Q HP HQ. destruct (on_isp _ HP) as [A IA]. destruct (on_isp _ HQ) as [B IB]. rewrite (add_pt _ _ _ _ IA IB). apply canon_pt_of.
    - intros P Q HP HQ. destruct (on_isp _ HP) as [A IA]. destruct (on_isp _ HQ) as [B IB]. rewrite (add_pt _ _ _ _ IA IB), (add_pt _ _ _ _ IB IA), e_comm. reflexivity.
    - intros P Q R HP HQ HR. destruct (on_isp _ HP) as [A IA]. destruct (on_isp _ HQ) as [B IB]. destruct (on_isp _ HR) as [C IC].
      rewrite (add_pt _ _ _ _ IA IB), (add_pt _ _ _ _ IB IC). rewrite (add_pt _ _ _ _ (isp_pt_of _) IC), (add_pt _ _ _ _ IA (isp_pt_of _)), e_assoc. reflexivity.
    - intros P HP. destruct (canon_isp _ HP) as [A [IA EA]]. cbn [c_id edw]. rewrite id_pt, (add_pt _ _ _ _ (isp_pt_of _) IA), e_id. symmetry. exact EA.
    - intros P HP. destruct (on_isp _ HP) as [A IA]. exists (pt_of (eneg' A)). split; [apply canon_pt_of|]. rewrite (add_pt _ _ _ _ IA (isp_pt_of _)), e_inv. symmetry. apply id_pt.
    - reflexivity.
    - intros P k HP K. destruct (on_isp _ HP) as [A IA]. rewrite !(smul_pt _ _ _ IA) by lia. rewrite (add_pt _ _ _ _ IA (isp_pt_of _)).
      replace (Z.to_nat (k + 1)) with (S (Z.to_nat k)) by lia. reflexivity.
    - reflexivity.
    - cbn [c_g c_n edw]. change (edw_smul (gx, gy) n) with (c_smul edw (gx, gy) n). rewrite (smul_pt _ _ _ g_isp) by lia. rewrite g_order. symmetry. apply id_pt.
    - cbn [c_g c_id edw]. intro H. congruence.
    - intros P HP. destruct (on_isp _ HP) as [A IA]. cbn [c_n edw]. rewrite (smul_pt _ _ _ IA) by lia. rewrite e_cofactor. symmetry. apply id_pt.
  Qed.
End Edw.
