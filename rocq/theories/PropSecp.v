(** PropSecp.v -- C56: the parameters of tss.S256() (btcec.go initS256) describe a group of prime order N generated by G, in which
    (x, y) -> (beta x, y) is multiplication by lambda. *)
From Verif Require Import Base NumTh FieldP AbGroup AbZ WGroup WCurve SecpField SecpFieldThm SecpPrimes Secp256k1.
From Coq Require Import Znumtheory.

(** the points of the curve, as the Go interface writes them: (0, 0) is the point at infinity *)
Definition aff (A : E) : Z * Z := match proj1_sig A with None => (0, 0) | Some (x, y) => (fv P x, fv P y) end.
(** the equation of the curve, in integers *)
Definition on_curve (x y : Z) : Prop := 0 <= x < P /\ 0 <= y < P /\ (y * y) mod P = (x * x * x + 7) mod P.

Lemma aff_inj A B : aff A = aff B -> A = B.
Proof.
  intro H. apply e_eq. unfold aff in H. pose proof (proj2_sig A) as OA. pose proof (proj2_sig B) as OB. 
  destruct (proj1_sig A) as [[x y]|], (proj1_sig B) as [[x' y']|]; cbn [onp] in *; [| | |reflexivity]; injection H as H1 H2.
  - now rewrite (fp_eq P x x' H1), (fp_eq P y y' H2).
  - destruct (sec_nt _ _ OA). apply (fp_eq P). rewrite H2. reflexivity.
  - destruct (sec_nt _ _ OB). apply (fp_eq P). rewrite <- H2. reflexivity.
Qed.
Lemma on_curve_point x y : on_curve x y <-> exists A, A <> ezero /\ aff A = (x, y).
Proof.
  split.
  - intros (X & Y & H). assert (O : onz x y).
    { apply on_z. rewrite Zminus_mod, H, Z.sub_diag. reflexivity. }
    exists (exist _ (Some (z x, z y)) O). split; [intro K; apply (f_equal (@proj1_sig _ _)) in K; discriminate K|].
    unfold aff. cbn [proj1_sig]. now rewrite !fv_fz.
  - intros (A & N & H). unfold aff in H. pose proof (proj2_sig A) as OA. destruct (proj1_sig A) as [[x' y']|] eqn:EA; [|destruct N; apply e_eq; exact EA].
    cbn [onp] in OA. injection H as <- <-. split; [apply fv_range, prime_p256k1|]. split; [apply fv_range, prime_p256k1|].
    unfold WGroup.on in OA. rewrite <- (fz_fv P x'), <- (fz_fv P y') in OA. rewrite <- !fz_mul, <- fz_add in OA. apply fz_inj in OA. exact OA.
Qed.
Lemma aff_zero : aff ezero = (0, 0). Proof. reflexivity. Qed.
Lemma aff_G : aff G = (gx256, gy256). Proof. vm_compute. reflexivity. Qed.
Lemma aff_none A : aff A = (0, 0) -> A = ezero. Proof. intro H. apply aff_inj. rewrite H. reflexivity. Qed.

(** P and N are prime *)
Theorem C56_primes : prime P /\ prime n256k1. Proof. exact (conj prime_p256k1 prime_n256k1). Qed.
(** The points form a commutative group under the chord-and-tangent law. *)
Theorem C56_group : (forall A B, eadd A B = eadd B A) /\ (forall A B C, eadd (eadd A B) C = eadd A (eadd B C)) /\
  (forall A, eadd ezero A = A) /\ (forall A, eadd A (eneg A) = ezero).
Proof. exact (conj EC (conj EA (conj EI EV))). Qed.
(** G is on the curve and has order exactly N. *)
Theorem C56_base_point : on_curve gx256 gy256 /\ aff G = (gx256, gy256) /\ (forall k, zm k G = ezero <-> k mod n256k1 = 0).
Proof.
  split; [apply on_curve_point; exists G; split; [exact g_nz|exact aff_G]|]. split; [exact aff_G|]. intro k. split.
  - apply (zm_order E eadd ezero eneg EC EA EI EV n256k1 G k prime_n256k1 g_order g_nz).
  - intro H. rewrite <- (zm_mod E eadd ezero eneg EC EA EI EV n256k1 G k g_order), H. apply (zm_0 E eadd ezero eneg EC EA EI EV).
Qed.
(** Every point is a multiple of G by exactly one scalar below N, so a pair of coordinates that satisfies the equation is never in a small subgroup. *)
Theorem C56_cyclic x y : on_curve x y -> exists k, 0 < k < n256k1 /\ aff (zm k G) = (x, y) /\ forall j, 0 <= j < n256k1 -> aff (zm j G) = (x, y) -> j = k.
Proof.
  intro H. apply on_curve_point in H as (A & N & <-). destruct (sec_cyclic A) as (k & K & ->). exists k. split.
  - assert (k <> 0); [|lia]. intros ->. apply N. apply (zm_0 E eadd ezero eneg EC EA EI EV).
  - split; [reflexivity|]. intros j J Q. apply aff_inj in Q. apply (zm_inj E eadd ezero eneg EC EA EI EV n256k1 G j k prime_n256k1 g_order g_nz) in Q.
    rewrite !Z.mod_small in Q by assumption. exact Q.
Qed.
(** There are exactly N points: the list of all of them, without repetition, has length N. *)
Theorem C56_order : exists L : list E, NoDup L /\ (forall A, In A L) /\ Z.of_nat (length L) = n256k1.
Proof. exists (e_all P 7). split; [exact (e_all_nodup P 7 prime_p256k1 p_gt3)|]. split; [exact (e_all_in P 7 prime_p256k1)|exact sec_order]. Qed.
(** N times any point is infinity, so scalars may be reduced modulo N (moduloReduce). *)
Theorem C56_reduce A k : zm n256k1 A = ezero /\ zm (k mod n256k1) A = zm k A.
Proof. split; [apply sec_kill|]. apply (zm_mod E eadd ezero eneg EC EA EI EV). apply sec_kill. Qed.
(** The endomorphism behind splitK: (beta x, y) is lambda times (x, y). *)
Theorem C56_endomorphism x y A : aff A = (x, y) -> A <> ezero -> aff (zm lam256 A) = ((beta256 * x) mod P, y).
Proof.
  intros H N. rewrite <- sec_lambda. unfold aff in *. unfold WCurve.phi. cbn [proj1_sig]. destruct (proj1_sig A) as [[x' y']|] eqn:EA; [|destruct N; apply e_eq; exact EA].
  injection H as <- <-. cbn [phi0]. apply f_equal2; [|reflexivity]. unfold f_mul. cbn [fv fz]. rewrite Zmult_mod_idemp_l. reflexivity.
Qed.
(** the statements are about real points: twice the base point *)
Theorem C56_example : aff (zm 2 G) = (89565891926547004231252920425935692360644145829622209833684329913297188986597, 12158399299693830322967808612713398636155367887041628176798871954788371653930).
Proof. rewrite (zm_2 E eadd ezero eneg EC EA EI EV). vm_compute. reflexivity. Qed.
