(** WCurve.v -- the curve y^2 = x^3 + b over the integers modulo a prime p: number of points, base point, endomorphism (pure mathematics;
    the Go code that computes on it is modelled in SecpCurve.v). *)
From Verif Require Import Base NumTh FieldP AbGroup AbZ WGroup.
From Coq Require Import Znumtheory Field Permutation.

Lemma odd_S_even k : Nat.even k = true -> Nat.odd (S k) = true. Proof. intro H. rewrite Nat.odd_succ. exact H. Qed.
Section WC.
  Variables (p b : Z).
  Hypothesis PR : prime p.
  Hypothesis P3 : 3 < p.
  Notation F := (fp p).
  Notation fz := (fz p). Notation fa := (f_add p). Notation fm := (f_mul p). Notation fs := (f_sub p). Notation fo := (f_opp p).
  Definition FT := fp_field p PR.
  Definition FID := f_integral p PR.
  Definition FD := fp_dec p.
  Add Field Fp' : FT.
  Notation bb := (fz b).
  Notation on := (WGroup.on F fa fm bb).
  Hypothesis NT : forall x y : F, on x y -> y <> fz 0.
  Lemma two_nz : fa (fz 1) (fz 1) <> fz 0.
  Proof. rewrite <- fz_add. intro H. apply fz_0_div in H; [|exact PR]. apply Z.divide_pos_le in H; lia. Qed.
  Definition E : Type := wpt F fa fm bb.
  Definition eadd : E -> E -> E := gadd F (fz 0) (fz 1) fa fm fs fo (f_div p) (f_inv p) FT FID FD bb two_nz NT.
  Definition eneg : E -> E := gneg F (fz 0) (fz 1) fa fm fs fo (f_div p) (f_inv p) FT bb.
  Definition ezero : E := gzero F fa fm bb.
  Lemma e_comm P Q : eadd P Q = eadd Q P. Proof. exact (gadd_comm F (fz 0) (fz 1) fa fm fs fo (f_div p) (f_inv p) FT FID FD bb two_nz NT P Q). Qed.
  Lemma e_assoc P Q R : eadd (eadd P Q) R = eadd P (eadd Q R). Proof. exact (gadd_assoc F (fz 0) (fz 1) fa fm fs fo (f_div p) (f_inv p) FT FID FD bb two_nz NT P Q R). Qed.
  Lemma e_id P : eadd ezero P = P. Proof. apply (gadd_0_l F (fz 0) (fz 1) fa fm fs fo (f_div p) (f_inv p) FT FID FD bb). Qed.
  Lemma e_inv P : eadd P (eneg P) = ezero. Proof. exact (gadd_neg F (fz 0) (fz 1) fa fm fs fo (f_div p) (f_inv p) FT FID FD bb two_nz NT P). Qed.
  Notation zm := (zm E eadd ezero eneg).

  (** ** all points *)
  Lemma fp_all_nodup : NoDup (fp_all p).
  Proof.
    unfold fp_all. assert (X : forall m s, Z.of_nat (s + m) <= p -> NoDup (map (fun k => fz (Z.of_nat k)) (seq s m))).
    { induction m as [|m IH]; intros s Hs; cbn [seq map]; constructor; [|apply IH; lia]. intro I. apply in_map_iff in I as [i [Ei Ii]]. apply in_seq in Ii.
      apply fz_inj in Ei. rewrite !Z.mod_small in Ei by lia. lia. }
    apply X. lia.
  Qed.
  Definition pts_at (x : F) : list E :=
    flat_map (fun y => match FD (fm y y) (fa (fm (fm x x) x) bb) with left h => [exist _ (Some (x, y)) h] | right _ => [] end) (fp_all p).
  Definition e_all : list E := ezero :: flat_map pts_at (fp_all p).
  Lemma e_eq (P Q : E) : proj1_sig P = proj1_sig Q -> P = Q. Proof. apply (wpt_eq F fa fm FD bb). Qed.
  Lemma in_pts x P : In P (pts_at x) <-> exists y, proj1_sig P = Some (x, y).
  Proof.
    unfold pts_at. rewrite in_flat_map. split.
    - intros (y & _ & I). destruct (FD _ _) as [h|h]; [|destruct I]. destruct I as [<-|[]]. exists y. reflexivity.
    - intros [y Hy]. exists y. split; [apply in_fp_all, PR|]. destruct P as [P O]. cbn in Hy. subst P. destruct (FD _ _) as [h|h]; [|destruct h; exact O]. left. apply e_eq. reflexivity.
  Qed.
  Lemma e_all_in P : In P e_all.
  Proof.
    destruct P as [[[x y]|] O]; [right|left; apply e_eq; reflexivity]. apply in_flat_map. exists x. split; [apply in_fp_all, PR|]. apply in_pts. exists y. reflexivity.
  Qed.
  Lemma nodup_flat (A B : Type) (f : A -> list B) l : NoDup l -> (forall a, In a l -> NoDup (f a)) -> (forall a a' c, In c (f a) -> In c (f a') -> a = a') -> NoDup (flat_map f l).
  Proof.
    induction 1 as [|a l NI ND IH]; intros H1 H2; cbn [flat_map]; [constructor|].
    assert (X : NoDup (flat_map f l)) by (apply IH; auto; intros; apply H1; now right).
    assert (Y : NoDup (f a)) by (apply H1; now left).
    assert (D : forall c, In c (f a) -> ~ In c (flat_map f l)). { intros c C I. apply in_flat_map in I as [a' [I1 I2]]. apply NI. now rewrite (H2 a a' c C I2). }
    clear - X Y D. induction Y as [|c m NI _ IHm]; cbn [app]; [exact X|]. constructor; [|apply IHm; intros; apply D; now right].
    intro I. apply in_app_or in I as [I|I]; [contradiction|]. apply (D c); [now left|exact I].
  Qed.
  Lemma pts_nodup x : NoDup (pts_at x).
  Proof.
    apply nodup_flat; [apply fp_all_nodup| |].
    - intros y _. destruct (FD _ _); constructor; [intros []|constructor].
    - intros y y' c. destruct (FD (fm y y) _); [|intros []]. destruct (FD (fm y' y') _); [|intros _ []]. intros [<-|[]] [E|[]]. apply (f_equal (@proj1_sig _ _)) in E. cbn in E. congruence.
  Qed.
  Lemma e_all_nodup : NoDup e_all.
  Proof.
    constructor.
    - intro I. apply in_flat_map in I as [x [_ I]]. apply in_pts in I as [y Hy]. discriminate Hy.
    - apply nodup_flat; [apply fp_all_nodup|intros; apply pts_nodup|]. intros x x' P I I'. apply in_pts in I as [y Hy]. apply in_pts in I' as [y' Hy']. congruence.
  Qed.
  Lemma pts_len x : length (pts_at x) = 0%nat \/ length (pts_at x) = 2%nat.
  Proof.
    destruct (pts_at x) as [|P l] eqn:EP; [now left|right]. assert (I : In P (pts_at x)) by (rewrite EP; now left). apply in_pts in I as [y Hy].
    assert (O := proj2_sig P). rewrite Hy in O. cbn in O. assert (Y0 := NT _ _ O).
    assert (PQ : P <> eneg P).
    { intro X. apply (f_equal (@proj1_sig _ _)) in X. unfold eneg, gneg in X. cbn [proj1_sig] in X. rewrite Hy in X. cbn [wneg] in X. apply Y0. apply (opp_eq F (fz 0) (fz 1) fa fm fs fo (f_div p) (f_inv p) FT FID two_nz). congruence. }
    assert (PE : Permutation (pts_at x) [P; eneg P]).
    { apply NoDup_Permutation; [apply pts_nodup|constructor; [intros [X|[]]; congruence|constructor; [intros []|constructor]]|].
      intro Q. split.
      - intro I. apply in_pts in I as [y' Hy']. assert (O' := proj2_sig Q). rewrite Hy' in O'. cbn in O'.
        destruct (same_x F (fz 0) (fz 1) fa fm fs fo (f_div p) (f_inv p) FT FID bb x y' x y O' O eq_refl) as [-> | ->]; [left; apply e_eq; congruence|right; left; apply e_eq].
        unfold eneg, gneg. cbn [proj1_sig]. rewrite Hy, Hy'. reflexivity.
      - intros [<-|[<-|[]]]; apply in_pts; [now exists y|]. exists (fo y). unfold eneg, gneg. cbn [proj1_sig]. rewrite Hy. reflexivity. }
    rewrite <- EP. apply Permutation_length in PE. exact PE.
  Qed.
  Lemma e_all_odd : Nat.odd (length e_all) = true.
  Proof.
    cbn [length e_all]. apply odd_S_even. induction (fp_all p) as [|x l IH]; cbn [flat_map]; [reflexivity|]. rewrite app_length, Nat.even_add, IH. destruct (pts_len x) as [-> | ->]; reflexivity.
  Qed.
  Lemma e_all_len : Z.of_nat (length e_all) <= 2 * p + 1.
  Proof.
    rewrite <- (fp_all_len p PR) at 1. cbn [length e_all]. assert (X : (length (flat_map pts_at (fp_all p)) <= 2 * length (fp_all p))%nat); [|lia].
    induction (fp_all p) as [|x l IH]; cbn [flat_map length]; [lia|]. rewrite app_length. destruct (pts_len x) as [-> | ->]; lia.
  Qed.

  (** ** the base point *)
  Variables (n : Z) (g : E).
  Hypothesis NP : prime n.
  Hypothesis PN : 2 * p + 1 < 3 * n.
  Hypothesis G0 : g <> ezero.
  Hypothesis GN : zm n g = ezero.
  Theorem curve_order : Z.of_nat (length e_all) = n.
  Proof.
    apply (order_n E eadd ezero eneg e_comm e_assoc e_id e_inv e_all n g e_all_nodup e_all_in NP G0 GN e_all_odd). pose proof e_all_len. lia.
  Qed.
  Theorem curve_cyclic (P : E) : exists k, 0 <= k < n /\ P = zm k g.
  Proof. apply (cyclic_n E eadd ezero eneg e_comm e_assoc e_id e_inv e_all n g e_all_nodup e_all_in NP G0 GN curve_order). Qed.
  Theorem curve_kill (P : E) : zm n P = ezero.
  Proof.
    destruct (curve_cyclic P) as [k [_ ->]]. rewrite <- (zm_mul E eadd ezero eneg e_comm e_assoc e_id e_inv), Z.mul_comm. rewrite (zm_mul E eadd ezero eneg e_comm e_assoc e_id e_inv), GN.
    apply (zm_zero E eadd ezero eneg e_comm e_assoc e_id e_inv).
  Qed.

  (** ** the map (x, y) -> (beta x, y) *)
  Variable beta : F.
  Hypothesis B3 : fm (fm beta beta) beta = fz 1.
  Definition phi0 (P : pt F) : pt F := match P with None => None | Some (x, y) => Some (fm beta x, y) end.
  Lemma beta_nz : beta <> fz 0.
  Proof. intro X. rewrite X in B3. assert (Y : fm (fm (fz 0) (fz 0)) (fz 0) = fz 0) by ring. rewrite Y in B3. symmetry in B3. apply fz_0_div in B3; [|exact PR]. apply Z.divide_pos_le in B3; lia. Qed.
  Lemma phi_on P : onp F fa fm bb P -> onp F fa fm bb (phi0 P).
  Proof.
    destruct P as [[x y]|]; cbn; auto. unfold WGroup.on. intros ->. f_equal. transitivity (fm (fm (fm beta beta) beta) (fm (fm x x) x)); [rewrite B3; ring|ring].
  Qed.
  Definition phi (P : E) : E := exist _ (phi0 (proj1_sig P)) (phi_on _ (proj2_sig P)).
  Notation wadd := (wadd F (fz 0) (fz 1) fa fm fs (f_div p) FD).
  Lemma phi0_add P Q : onp F fa fm bb P -> onp F fa fm bb Q -> phi0 (wadd P Q) = wadd (phi0 P) (phi0 Q).
  Proof.
    intros A B. destruct P as [[x1 y1]|]; [|reflexivity]. destruct Q as [[x2 y2]|]; [|reflexivity]. cbn [phi0].
    assert (A' := phi_on _ A). assert (B' := phi_on _ B). cbn [phi0 onp] in *.
    destruct (opps_dec F fo FD x1 y1 x2 y2) as [O|O].
    - rewrite (add_opps F (fz 0) (fz 1) fa fm fs fo (f_div p) (f_inv p) FT FID FD bb two_nz NT _ _ _ _ A O). cbn [phi0]. symmetry.
      apply (add_opps F (fz 0) (fz 1) fa fm fs fo (f_div p) (f_inv p) FT FID FD bb two_nz NT _ _ _ _ A'). destruct O as [-> ->]. split; reflexivity.
    - destruct (ex_sl F (fz 0) (fz 1) fa fm fs fo (f_div p) (f_inv p) FT FID FD bb two_nz NT _ _ _ _ A B O) as (l & [S1 S2] & ->).
      set (l' := fm (fm beta beta) l).
      rewrite (add_sl F (fz 0) (fz 1) fa fm fs fo (f_div p) (f_inv p) FT FID FD bb two_nz NT l' _ _ _ _ A' B').
      + unfold line. cbn [phi0]. cbv zeta. subst l'. do 2 f_equal.
        * transitivity (fs (fs (fm (fm (fm (fm beta beta) beta) beta) (fm l l)) (fm beta x1)) (fm beta x2)); [rewrite B3; ring|ring].
        * set (x3 := fs (fs (fm l l) x1) x2).
          transitivity (fs (fm (fm (fm (fm beta beta) beta) l) (fs x1 x3)) y1); [rewrite B3; ring|].
          assert (X : fs (fs (fm (fm (fm beta beta) l) (fm (fm beta beta) l)) (fm beta x1)) (fm beta x2) = fm beta x3).
          { subst x3. transitivity (fs (fs (fm (fm (fm (fm beta beta) beta) beta) (fm l l)) (fm beta x1)) (fm beta x2)); [ring|rewrite B3; ring]. }
          rewrite X. ring.
      + intros [E1 E2]. apply O. split; [|exact E2]. apply (mul_cancel F (fz 0) (fz 1) fa fm fs fo (f_div p) (f_inv p) FT FID beta); [exact beta_nz|exact E1].
      + subst l'. split.
        * transitivity (fm (fm (fm beta beta) beta) (fm l (fs x2 x1))); [ring|]. rewrite B3, S1. ring.
        * transitivity (fm (fm beta beta) (fm l (fa y1 y2))); [ring|]. rewrite S2. ring.
  Qed.
  Lemma phi_add P Q : phi (eadd P Q) = eadd (phi P) (phi Q).
  Proof. apply e_eq. cbn [phi eadd gadd proj1_sig]. apply phi0_add; apply proj2_sig. Qed.
  Lemma phi_zero : phi ezero = ezero. Proof. apply e_eq. reflexivity. Qed.
  Lemma phi_neg P : phi (eneg P) = eneg (phi P).
  Proof. apply e_eq. cbn [phi eneg gneg proj1_sig]. destruct (proj1_sig P) as [[x y]|]; reflexivity. Qed.
  Lemma phi_nm k P : phi (nm E eadd ezero k P) = nm E eadd ezero k (phi P).
  Proof. induction k as [|k IH]; cbn [nm]; [apply phi_zero|]. now rewrite phi_add, IH. Qed.
  Lemma phi_zm k P : phi (zm k P) = zm k (phi P). Proof. unfold AbZ.zm. now rewrite phi_add, phi_neg, !phi_nm. Qed.
  Lemma phi_sum P : fa (fa (fm beta beta) beta) (fz 1) = fz 0 -> eadd P (eadd (phi P) (phi (phi P))) = ezero.
  Proof.
    intro B2. rewrite <- e_assoc. assert (X : eadd P (phi P) = eneg (phi (phi P))); [|rewrite X, e_comm; apply e_inv].
    apply e_eq. cbn [phi eadd eneg gadd gneg proj1_sig]. assert (A := proj2_sig P). assert (B := phi_on _ A). destruct (proj1_sig P) as [[x y]|]; [|reflexivity]. cbn [phi0 onp wneg] in *.
    assert (Q : fa (fa x (fm beta x)) (fm beta (fm beta x)) = fz 0). { transitivity (fm (fa (fa (fm beta beta) beta) (fz 1)) x); [ring|rewrite B2; ring]. }
    rewrite (add_sl F (fz 0) (fz 1) fa fm fs fo (f_div p) (f_inv p) FT FID FD bb two_nz NT (fz 0) _ _ _ _ A B).
    - unfold line. cbv zeta. apply f_equal. apply f_equal2; [|ring]. transitivity (fs (fm beta (fm beta x)) (fa (fa x (fm beta x)) (fm beta (fm beta x)))); [ring|rewrite Q; ring].
    - intros [_ Y]. apply (NT _ _ A). apply (opp_eq F (fz 0) (fz 1) fa fm fs fo (f_div p) (f_inv p) FT FID two_nz). exact Y.
    - split; [ring|]. transitivity (fm x (fm x (fa (fa (fm beta beta) beta) (fz 1)))); [rewrite B2; ring|ring].
  Qed.
  (** the product of a + b' phi and its conjugate *)
  Lemma norm_kill P a' b' : fa (fa (fm beta beta) beta) (fz 1) = fz 0 -> eadd (zm a' P) (zm b' (phi P)) = ezero -> zm (a' * a' - a' * b' + b' * b') P = ezero.
  Proof.
    intros B2 R. pose (add4 := swap4 E eadd e_comm e_assoc).
    assert (S2 : phi (phi P) = eneg (eadd P (phi P))). { apply (neg_u E eadd ezero eneg e_comm e_assoc e_id e_inv). rewrite e_assoc. apply phi_sum, B2. }
    assert (R2 : eadd (zm a' (phi P)) (zm b' (phi (phi P))) = ezero). { rewrite <- (phi_zm a' P), <- (phi_zm b' (phi P)), <- phi_add, R. apply phi_zero. }
    (* a'(R) - b'(phi P part) ... : (a' - b') R - b' phi R *)
    assert (X : eadd (zm (a' - b') (eadd (zm a' P) (zm b' (phi P)))) (zm (- b') (eadd (zm a' (phi P)) (zm b' (phi (phi P))))) = ezero).
    { rewrite R, R2, !(zm_zero E eadd ezero eneg e_comm e_assoc e_id e_inv). apply e_id. }
    rewrite S2 in X. rewrite (zm_neg E eadd ezero eneg e_comm e_assoc e_id e_inv), <- (zm_opp E eadd ezero eneg e_comm e_assoc e_id e_inv) in X.
    rewrite !(zm_sum E eadd ezero eneg e_comm e_assoc e_id e_inv), <- !(zm_mul E eadd ezero eneg e_comm e_assoc e_id e_inv) in X.
    rewrite (e_comm (zm _ P) (zm _ (phi P))) in X.
    rewrite (e_comm (zm (- b' * a') (phi P))) in X.
    rewrite <- e_assoc in X.
    (* collect *)
    assert (Y : eadd (zm (a' * a' - a' * b' + b' * b') P) (zm 0 (phi P)) = ezero); [|rewrite (zm_0 E eadd ezero eneg e_comm e_assoc e_id e_inv) in Y; rewrite e_comm, e_id in Y; exact Y].
    etransitivity; [|exact X]. clear X R R2 S2. set (Q := phi P).
    replace (a' * a' - a' * b' + b' * b') with ((a' - b') * a' + - b' * - b') by ring. replace (zm 0 Q) with (zm ((a' - b') * b' + (- b' * - b' + - b' * a')) Q) by (f_equal; ring).
    rewrite !(zm_add E eadd ezero eneg e_comm e_assoc e_id e_inv).
    rewrite !e_assoc. rewrite (e_comm (zm ((a' - b') * b') Q)). rewrite (e_comm (zm ((a' - b') * b') Q) (eadd (zm ((a' - b') * a') P) _)). rewrite !e_assoc. reflexivity.
  Qed.
  (** one relation a g + b' phi(g) = 0 with b' invertible modulo n gives the eigenvalue on every point *)
  Variables (a1 b1 lam : Z).
  Hypothesis REL : eadd (zm a1 g) (zm b1 (phi g)) = ezero.
  Hypothesis LAM : (a1 + b1 * lam) mod n = 0.
  Hypothesis B1 : b1 mod n <> 0.
  Theorem phi_lambda (P : E) : phi P = zm lam P.
  Proof.
    pose proof (prime_ge_2 _ NP) as N2. destruct (curve_cyclic (phi g)) as [mu [_ Hmu]].
    assert (X : zm (a1 + b1 * mu) g = ezero).
    { rewrite (zm_add E eadd ezero eneg e_comm e_assoc e_id e_inv). rewrite (zm_mul E eadd ezero eneg e_comm e_assoc e_id e_inv), <- Hmu. exact REL. }
    apply (zm_order E eadd ezero eneg e_comm e_assoc e_id e_inv n g _ NP GN G0) in X. apply Zmod_divide in X; [|lia]. apply Zmod_divide in LAM; [|lia].
    assert (D : (n | b1 * (mu - lam))). { destruct X as [q1 H1], LAM as [q2 H2]. exists (q1 - q2). lia. }
    apply prime_mult in D; [|exact NP]. destruct D as [D|D]; [destruct B1; now apply Zdivide_mod|].
    assert (GL : phi g = zm lam g). { rewrite Hmu. destruct D as [q Hq]. replace mu with (lam + n * q) by lia. rewrite (zm_add E eadd ezero eneg e_comm e_assoc e_id e_inv), (zm_kill E eadd ezero eneg e_comm e_assoc e_id e_inv n g q GN). rewrite e_comm. apply e_id. }
    destruct (curve_cyclic P) as [k [_ ->]]. rewrite phi_zm, GL, <- !(zm_mul E eadd ezero eneg e_comm e_assoc e_id e_inv). f_equal. ring.
  Qed.
End WC.
