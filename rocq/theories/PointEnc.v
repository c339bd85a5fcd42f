(** PointEnc.v -- crypto/ecpoint.go 113-268 and tss/curve.go: encodings of curve points, and C33.

    A point is a curve tag and two possibly nil coordinates.  [cv] gives the curve behind each tag; the registry is the
    initial one (tss/curve.go 31-38: "secp256k1" and "ed25519", no RegisterCurve). *)
From Verif Require Import Base BigInt Text Json PartyID Curve Save.

Inductive cid := Secp | Ed.
Definition cid_name (c : cid) : bytes := match c with Secp => str "secp256k1" | Ed => str "ed25519" end.
(** tss/curve.go 44-50 GetCurveByName *)
Definition cid_of_name (n : bytes) : option cid :=
  if bytes_eqb n (str "secp256k1") then Some Secp else if bytes_eqb n (str "ed25519") then Some Ed else None.
Record ecpoint := { ep_c : cid; ep_x : option Z; ep_y : option Z }.

Section Enc.
  Variable cv : cid -> curve.
  (** ecpoint.go 117-122 isOnCurve *)
  Definition is_on (c : cid) (x y : option Z) : bool := match x, y with Some x, Some y => c_on (cv c) x y | _, _ => false end.

  (** ecpoint.go 126-139 FlattenECPoints; outer [None] is the nil slice, result [None] the error *)
  Fixpoint flatten_loop (l : list (option ecpoint)) : option (list (option Z)) :=
    match l with
    | [] => Some []
    | Some {| ep_x := Some x; ep_y := Some y |} :: r => match flatten_loop r with Some f => Some (Some x :: Some y :: f) | None => None end
    | _ :: _ => None
    end.
  Definition flatten (l : option (list (option ecpoint))) : option (list (option Z)) := match l with Some l => flatten_loop l | None => None end.
  (** ecpoint.go 141-165 UnFlattenECPoints.  The loop stops at the first bad point; the nil test of the second loop
      concerns only the unchecked mode *)
  Fixpoint unflatten_loop (c : cid) (nocheck : bool) (l : list (option Z)) : option (list ecpoint) :=
    match l with
    | x :: y :: r =>
      if nocheck || is_on c x y then match unflatten_loop c nocheck r with Some f => Some ({| ep_c := c; ep_x := x; ep_y := y |} :: f) | None => None end
      else None
    | _ => Some []
    end.
  Definition has_coords (p : ecpoint) : bool := match ep_x p, ep_y p with Some _, Some _ => true | _, _ => false end.
  Definition unflatten (c : cid) (l : option (list (option Z))) (nocheck : bool) : option (list ecpoint) :=
    match l with
    | None => None
    | Some l => if Z.of_nat (length l) mod 2 =? 0 then
                  match unflatten_loop c nocheck l with Some ps => if forallb has_coords ps then Some ps else None | None => None end
                else None
    end.

  (** math/big Int.GobEncode: version 1 and the sign in the first byte, then the magnitude; nil gives no bytes *)
  Definition int_gob (o : option Z) : bytes := match o with Some z => zb (if z <? 0 then 3 else 2) :: to_be z | None => [] end.
  (** math/big Int.GobDecode: no bytes give 0; [None] = wrong version *)
  Definition int_ungob (b : bytes) : option Z :=
    match b with
    | [] => Some 0
    | h :: r => if bz h / 2 =? 1 then Some (if Z.odd (bz h) then - of_be r else of_be r) else None
    end.
  (** ecpoint.go 170-193 GobEncode *)
  Definition gob_enc (p : ecpoint) : bytes :=
    let x := int_gob (ep_x p) in let y := int_gob (ep_y p) in
    le_fixed 4 (Z.of_nat (length x)) ++ x ++ le_fixed 4 (Z.of_nat (length y)) ++ y.
  (** binary.Read of a uint32, then bytes.Reader.Read into a slice of that length: at the end of the input even an
      empty Read fails with EOF, otherwise it must deliver all bytes *)
  Definition read_block (b : bytes) : option (bytes * bytes) :=
    if (length b <? 4)%nat then None else
    let n := of_le (firstn 4 b) in let r := skipn 4 b in
    match r with [] => None | _ => if Z.of_nat (length r) <? n then None else Some (firstn (Z.to_nat n) r, skipn (Z.to_nat n) r) end.
  (** ecpoint.go 195-229 GobDecode; [ec] is tss.EC().  Simplification: on failure the receiver may be partly changed. *)
  Definition gob_dec (ec : cid) (b : bytes) : option ecpoint :=
    match read_block b with
    | None => None
    | Some (x, b1) =>
      match read_block b1 with
      | None => None
      | Some (y, _) =>
        match int_ungob x, int_ungob y with
        | Some x, Some y => if is_on ec (Some x) (Some y) then Some {| ep_c := ec; ep_x := Some x; ep_y := Some y |} else None
        | _, _ => None
        end
      end
    end.

  (** ecpoint.go 234-247 MarshalJSON *)
  Definition point_json (p : ecpoint) : bytes :=
    jenc (JObj [(str "Curve", JStr (cid_name (ep_c p))); (str "Coords", JArr [jz (ep_x p); jz (ep_y p)])]).
  (** ecpoint.go 249-277 UnmarshalJSON (field matching as in Save.v); an empty name means tss.EC() *)
  Definition point_unjson (ec : cid) (b : bytes) : option ecpoint :=
    match jdec b with
    | Some (JObj l) =>
      match dfields dpoint_field ([], (None, None)) l with
      | Some (nm, (x, y)) =>
        match (match nm with [] => Some ec | _ => cid_of_name nm end) with
        | Some c => if is_on c x y then Some {| ep_c := c; ep_x := x; ep_y := y |} else None
        | None => None
        end
      | None => None
      end
    | _ => None
    end.

  (** ** C33 *)
  Definition mk (c : cid) (p : point) : ecpoint := {| ep_c := c; ep_x := Some (px p); ep_y := Some (py p) |}.

  Theorem C33_flatten_round_trip c ps : Forall (fun p => c_on (cv c) (px p) (py p) = true) ps ->
    exists f, flatten (Some (map (fun p => Some (mk c p)) ps)) = Some f /\ length f = (2 * length ps)%nat /\
      forall nocheck, unflatten c (Some f) nocheck = Some (map (mk c) ps).
  Proof.
    intro F. exists (flat_map (fun p => [Some (px p); Some (py p)]) ps).
    assert (L : length (flat_map (fun p : point => [Some (px p); Some (py p)]) ps) = (2 * length ps)%nat) by (clear; induction ps as [|p ps IH]; [reflexivity|]; cbn [flat_map length app]; rewrite IH; lia).
    split; [|split; [exact L|]].
    - unfold flatten. clear F L. induction ps as [|p ps IH]; [reflexivity|]. cbn [map flatten_loop mk ep_x ep_y flat_map app]. rewrite IH. reflexivity.
    - intro nc. unfold unflatten. rewrite L. replace (Z.of_nat (2 * length ps) mod 2) with 0 by (rewrite Nat2Z.inj_mul, Z.mul_comm; symmetry; apply Z_mod_mult).
      cbn [Z.eqb]. replace (unflatten_loop c nc _) with (Some (map (mk c) ps)).
      + replace (forallb has_coords (map (mk c) ps)) with true; [reflexivity|]. clear. induction ps as [|p ps IH]; [reflexivity|]. cbn. exact IH.
      + clear L. induction F as [|p ps Fp F IH]; [reflexivity|]. cbn [flat_map app unflatten_loop is_on map]. rewrite Fp, orb_true_r. rewrite <- IH. reflexivity.
  Qed.
  (** UnFlatten with the check returns only points on the curve, and all the input; odd lengths and nil are refused. *)
  Theorem C33_unflatten_checked c l ps : unflatten c (Some l) false = Some ps ->
    flatten (Some (map Some ps)) = Some l /\ Forall (fun p => ep_c p = c /\ is_on c (ep_x p) (ep_y p) = true) ps.
  Proof.
    unfold unflatten. destruct (Z.eqb_spec (Z.of_nat (length l) mod 2) 0) as [M|]; [|discriminate].
    destruct (unflatten_loop c false l) as [qs|] eqn:E; [|discriminate]. destruct (forallb has_coords qs) eqn:K; [|discriminate]. intro Q. injection Q as ->.
    clear K. remember (length l) as n eqn:N. revert l ps N M E. induction n as [n IH] using lt_wf_ind. intros l ps N M E.
    destruct l as [|x [|y l]]; cbn [unflatten_loop] in E.
    - injection E as <-. split; [reflexivity|constructor].
    - subst n. discriminate M.
    - cbn [orb] in E. destruct (is_on c x y) eqn:O; [|discriminate]. destruct (unflatten_loop c false l) as [f|] eqn:Ef; [|discriminate]. injection E as <-.
      destruct (IH (length l)) with (l := l) (ps := f) as [IH1 IH2]; [subst n; cbn; lia|reflexivity| |exact Ef|].
      { subst n. cbn [length] in M. replace (Z.of_nat (S (S (length l)))) with (Z.of_nat (length l) + 1 * 2) in M by lia. rewrite Z_mod_plus_full in M. exact M. }
      split; [|constructor; [split; [reflexivity|exact O]|exact IH2]].
      cbn [map flatten flatten_loop ep_x ep_y]. unfold is_on in O. destruct x; [|discriminate]. destruct y; [|discriminate]. cbn [flatten] in IH1. rewrite IH1. reflexivity.
  Qed.
  Theorem C33_unflatten_refuses c l nc : l = None \/ (exists l', l = Some l' /\ Nat.Odd (length l')) -> unflatten c l nc = None.
  Proof.
    intros [->|(l' & -> & [k K])]; [reflexivity|]. unfold unflatten. rewrite K. replace (Z.of_nat (2 * k + 1)) with (1 + Z.of_nat k * 2) by lia. rewrite Z_mod_plus_full. reflexivity.
  Qed.
  (** without the check, points off the curve pass *)
  Theorem C33_unflatten_unchecked_refuted c x y : c_on (cv c) x y = false -> unflatten c (Some [Some x; Some y]) true = Some [{| ep_c := c; ep_x := Some x; ep_y := Some y |}].
  Proof. reflexivity. Qed.

  Lemma int_gob_rt z : int_ungob (int_gob (Some z)) = Some z.
  Proof.
    unfold int_gob, int_ungob. destruct (Z.ltb_spec z 0).
    - change (bz (zb 3)) with 3. cbn [Z.div Z.eqb Z.odd]. change (3 / 2 =? 1) with true. cbv iota. rewrite of_be_to_be. f_equal. lia.
    - change (bz (zb 2)) with 2. change (2 / 2 =? 1) with true. change (Z.odd 2) with false. cbv iota. rewrite of_be_to_be. f_equal. lia.
  Qed.
  Lemma read_block_app x r : Z.of_nat (length x) < 2 ^ 32 -> x ++ r <> [] -> read_block (le_fixed 4 (Z.of_nat (length x)) ++ x ++ r) = Some (x, r).
  Proof.
    intros L N. unfold read_block. rewrite app_length, le_fixed_length. destruct (Nat.ltb_spec (4 + length (x ++ r)) 4); [lia|].
    rewrite firstn_app, skipn_app, le_fixed_length, Nat.sub_diag. rewrite firstn_all2, skipn_all2 by (rewrite le_fixed_length; lia). cbn [firstn skipn app]. rewrite app_nil_r.
    rewrite of_le_le_fixed_small by (change (256 ^ Z.of_nat 4) with (2 ^ 32); lia). destruct (x ++ r) as [|w0 w] eqn:E; [congruence|]. rewrite <- E.
    destruct (Z.ltb_spec (Z.of_nat (length (x ++ r))) (Z.of_nat (length x))); [rewrite app_length in *; lia|]. rewrite Nat2Z.id.
    rewrite firstn_app, skipn_app, firstn_all, skipn_all, Nat.sub_diag. cbn [firstn skipn app]. rewrite app_nil_r. reflexivity.
  Qed.
  (** Gob: decoding the encoding of a point of the current curve returns it, also with bytes appended. *)
  Theorem C33_gob_round_trip ec p junk : c_on (cv ec) (px p) (py p) = true ->
    Z.of_nat (length (to_be (px p))) < 2 ^ 32 - 1 -> Z.of_nat (length (to_be (py p))) < 2 ^ 32 - 1 -> gob_dec ec (gob_enc (mk ec p) ++ junk) = Some (mk ec p).
  Proof.
    intros O Lx Ly. unfold gob_dec, gob_enc. cbn [mk ep_x ep_y]. rewrite <- !app_assoc.
    rewrite read_block_app; [|cbn [int_gob length]; rewrite Nat2Z.inj_succ; lia|discriminate].
    rewrite read_block_app; [|cbn [int_gob length]; rewrite Nat2Z.inj_succ; lia|discriminate].
    rewrite !int_gob_rt. cbn [is_on]. rewrite O. reflexivity.
  Qed.
  (** Gob decoding yields only points on the current curve. *)
  Theorem C33_gob_on_curve ec b p : gob_dec ec b = Some p -> ep_c p = ec /\ is_on ec (ep_x p) (ep_y p) = true.
  Proof.
    unfold gob_dec. destruct (read_block b) as [[x b1]|]; [|discriminate]. destruct (read_block b1) as [[y b2]|]; [|discriminate].
    destruct (int_ungob x) as [zx|]; [|discriminate]. destruct (int_ungob y) as [zy|]; [|discriminate]. destruct (is_on ec (Some zx) (Some zy)) eqn:O; [|discriminate].
    intro E. injection E as <-. cbn. auto.
  Qed.
  (** The curve is not part of the Gob form: a point of the other curve never comes back as itself. *)
  Theorem C33_gob_loses_curve_refuted ec p : ep_c p <> ec -> gob_dec ec (gob_enc p) <> Some p.
  Proof. intros N E. apply C33_gob_on_curve in E. tauto. Qed.

  Lemma cid_name_rt c : cid_of_name (cid_name c) = Some c /\ cid_name c <> [].
  Proof. destruct c; split; try discriminate; reflexivity. Qed.
  (** JSON: decoding the encoding of a point on its curve returns it, whatever the current curve is. *)
  Theorem C33_json_round_trip ec c p : c_on (cv c) (px p) (py p) = true -> point_unjson ec (point_json (mk c p)) = Some (mk c p).
  Proof.
    intro O. unfold point_unjson, point_json. cbn [mk ep_c ep_x ep_y]. rewrite jdec_jenc.
    2: { cbn [jok fold_right fst snd]. repeat split; try reflexivity; try apply ztok_num; destruct c; reflexivity. }
    cbn [dfields fold_left]. unfold dpoint_field at 2. cbn [fst snd]. change (name_is "Curve" (str "Curve")) with true. cbn iota.
    unfold dpoint_field. cbn [fst snd]. change (name_is "Curve" (str "Coords")) with false. change (name_is "Coords" (str "Coords")) with true. cbn iota. cbn [firstn dlist]. rewrite !dz_jz.
    change (name_is "Curve" (str "Curve")) with true. cbv iota. cbn [fst]. destruct (cid_name_rt c) as [R N]. rewrite R. destruct (cid_name c) as [|n0 n]; [congruence|]. cbn [is_on]. rewrite O. reflexivity.
  Qed.
  Theorem C33_json_on_curve ec b p : point_unjson ec b = Some p -> is_on (ep_c p) (ep_x p) (ep_y p) = true.
  Proof.
    unfold point_unjson. destruct (jdec b) as [[| | | | |l]|]; try discriminate. destruct (dfields _ _ _) as [[nm [x y]]|]; [|discriminate].
    destruct (match nm with [] => Some ec | _ => cid_of_name nm end) as [c|]; [|discriminate]. destruct (is_on c x y) eqn:O; [|discriminate]. intro E. injection E as <-. exact O.
  Qed.
End Enc.
(** A nil X coordinate is encoded as nothing and decoded as 0. *)
Theorem C33_gob_nil_refuted cv ec y : c_on (cv ec) 0 y = true -> Z.of_nat (length (to_be y)) < 2 ^ 32 - 1 ->
  gob_dec cv ec (gob_enc {| ep_c := ec; ep_x := None; ep_y := Some y |}) = Some {| ep_c := ec; ep_x := Some 0; ep_y := Some y |}.
Proof.
  intros O L. unfold gob_dec, gob_enc. cbn [ep_x ep_y int_gob length]. change (Z.of_nat 0) with (Z.of_nat (length (@nil byte))).
  rewrite (read_block_app []); [|cbn; lia|destruct (le_fixed 4 _) eqn:E; [|discriminate]; apply (f_equal (@length _)) in E; rewrite le_fixed_length in E; discriminate].
  change (zb (if y <? 0 then 3 else 2) :: to_be y) with (int_gob (Some y)). change (S (length (to_be y))) with (length (int_gob (Some y))).
  replace (le_fixed 4 (Z.of_nat (length (int_gob (Some y)))) ++ int_gob (Some y)) with (le_fixed 4 (Z.of_nat (length (int_gob (Some y)))) ++ int_gob (Some y) ++ []) by (rewrite app_nil_r; reflexivity).
  rewrite read_block_app; [|cbn [int_gob length]; rewrite Nat2Z.inj_succ; lia|discriminate]. rewrite int_gob_rt. cbn [int_ungob is_on]. rewrite O. reflexivity.
Qed.
(** a toy registry: "secp256k1" accepts y = x + 1, "ed25519" accepts y = 2x *)
Definition c33_curve (f : Z -> Z) : curve := {| c_on := fun x y => y =? f x; c_add := fun p _ => p; c_smul := fun p _ => p; c_bmul := fun k => (k, k); c_g := (1, 1); c_n := 7; c_id := (0, 0); c_canon := fun _ => True |}.
Definition c33_cv (c : cid) : curve := match c with Secp => c33_curve (fun x => x + 1) | Ed => c33_curve (fun x => 2 * x) end.
Theorem C33_example : gob_enc (mk Ed (300, 600)) = [zb 3; zb 0; zb 0; zb 0; zb 2; zb 1; zb 44; zb 3; zb 0; zb 0; zb 0; zb 2; zb 2; zb 88] /\
  gob_dec c33_cv Ed (gob_enc (mk Ed (300, 600))) = Some (mk Ed (300, 600)) /\ gob_dec c33_cv Secp (gob_enc (mk Ed (300, 600))) = None /\
  point_json (mk Ed (-3, -6)) = str "{""Curve"":""ed25519"",""Coords"":[-3,-6]}" /\ point_unjson c33_cv Secp (point_json (mk Ed (-3, -6))) = Some (mk Ed (-3, -6)) /\
  point_unjson c33_cv Secp (str "{""Coords"":[3,4]}") = Some (mk Secp (3, 4)) /\
  unflatten c33_cv Ed (Some [Some 1; Some 2; Some 3; Some 6]) false = Some [mk Ed (1, 2); mk Ed (3, 6)] /\ unflatten c33_cv Ed (Some [Some 1; Some 3]) false = None.
Proof. repeat split; vm_compute; reflexivity. Qed.
