(** SignEx.v -- two concrete two-party signing sessions on the 88-point group, used by examples and counterexamples.
    Everything the sessions are created from is given through the arguments of NewSignLocalParty. *)
From Verif Require Import Base BigInt HashFrame Text Wire Messages PartyID Curve Json Save Keygen NumTh Paillier RangeProofs PropRange Ckd PropCkd Subset Onsign OnsignEnc OnsignHist.

Definition se_hash64 (b : bytes) : bytes := repeat (zb (fold_left (fun a c => (a * 3 + bz c) mod 251) b 0)) 64.
Definition se_save (x : Z) : save :=
  {| sv_priv := Some x; sv_share := None; sv_chain := Some [Some 3; Some 7]; sv_ks := [Some 21; Some 22];
     sv_pub := [Some (gmul toy2 5); Some (gmul toy2 9)]; sv_ed := Some (gmul toy2 14);
     sv_pks := [None; None]; sv_peds := [None; None] |}.
Definition se_rec (N : Z) : bytes := repeat (zb 0) 33 ++ be_fixed 256 N ++ be_fixed 128 323 ++ be_fixed 128 4 ++ be_fixed 128 9.
Definition se_refresh : bytes := hex_enc (repeat (zb 0) 1376 ++ se_rec 143 ++ se_rec 187).
Definition se_path : bytes := str "44/501/0/0/8".
Definition se_new (i x : Z) (msg rf : bytes) : outcome (res * option sparty) :=
  sg_new toy2 toy_hmac go121_spare i 2 [str "21"; str "22"] msg (b64_enc (save_enc (se_save x))) rf se_path.
Definition se_msg : bytes := str "0041".
(** normal forms, so that later checks do not repeat the work *)
Definition se_party0 : sparty := Eval vm_compute in match se_new 0 5 se_msg se_refresh with Ret (_, Some p) => p | _ => Build_sparty 0 [] (new_save 0) [] [] [] [] [] [] None None [] 0 None None [] 0 {| sg_sig := []; sg_R := []; sg_S := []; sg_M := [] |} end.
Definition se_party1 : sparty := Eval vm_compute in match se_new 1 9 se_msg se_refresh with Ret (_, Some p) => p | _ => Build_sparty 0 [] (new_save 0) [] [] [] [] [] [] None None [] 0 None None [] 0 {| sg_sig := []; sg_R := []; sg_S := []; sg_M := [] |} end.
Lemma se_party0_new : se_new 0 5 se_msg se_refresh = Ret (ok0, Some se_party0). Proof. vm_cast_no_check (eq_refl (Ret (ok0, Some se_party0))). Qed.
Lemma se_party1_new : se_new 1 9 se_msg se_refresh = Ret (ok0, Some se_party1). Proof. vm_cast_no_check (eq_refl (Ret (ok0, Some se_party1))). Qed.

(** ** Honest messages of both parties *)
Definition se_call := sop_run toy2 toyD ex_hash se_hash64.
Definition se_hist := s_hist toy2 toyD ex_hash se_hash64.
Definition se_run := s_run toy2 toyD ex_hash se_hash64.
Definition se_draws (j : nat) : pdraws := ex_draws.
Definition se_r1 (k rho : Z) : sop := SR1 {| s1_k := k; s1_rho := rho; s1_d := se_draws |}.
Definition se_z (j : nat) : Z := 1.
(** the text returned by the last call of a run *)
Definition se_out (ops : list sop) (p : sparty) : bytes :=
  match se_run ops p with Some (l, _) => match rev l with (_, r) :: _ => if r_ok r then b64_enc (r_data r) else str "failed" | [] => [] end | None => str "panic" end.
Definition m11_0 := Eval vm_compute in se_out [se_r1 8 5] se_party0.
Definition m11_1 := Eval vm_compute in se_out [se_r1 4 6] se_party1.
Definition m12_0 := Eval vm_compute in se_out [se_r1 8 5; SGet1 1] se_party0.
Definition m12_1 := Eval vm_compute in se_out [se_r1 4 6; SGet1 0] se_party1.
(** the ops of party 0 up to its second round, with its peer's round-1 messages *)
Definition se_ops1 : list sop := [se_r1 8 5; SAcc 1 1 m11_1; SAcc 1 1 m12_1; SFin 1].
Definition se_ops1' : list sop := [se_r1 4 6; SAcc 1 0 m11_0; SAcc 1 0 m12_0; SFin 1].
Definition m2_0 := Eval vm_compute in se_out (se_ops1 ++ [SR2 se_draws; SGet2 1]) se_party0.
Definition m2_1 := Eval vm_compute in se_out (se_ops1' ++ [SR2 se_draws; SGet2 0]) se_party1.
Definition se_ops2 : list sop := se_ops1 ++ [SR2 se_draws; SAcc 2 1 m2_1; SFin 2].
Definition se_ops2' : list sop := se_ops1' ++ [SR2 se_draws; SAcc 2 0 m2_0; SFin 2].
Definition m3_0 := Eval vm_compute in se_out (se_ops2 ++ [SR3 se_z]) se_party0.
Definition m3_1 := Eval vm_compute in se_out (se_ops2' ++ [SR3 se_z]) se_party1.
Definition se_ops3 : list sop := se_ops2 ++ [SR3 se_z; SAcc 3 1 m3_1; SFin 3].
Definition se_ops3' : list sop := se_ops2' ++ [SR3 se_z; SAcc 3 0 m3_0; SFin 3].

(** party 1 of a second attempt, with another nonce, answering the same party 0 *)
Definition m11_1b := Eval vm_compute in se_out [se_r1 3 6] se_party1.
Definition m12_1b := Eval vm_compute in se_out [se_r1 3 6; SGet1 0] se_party1.
Definition m2_1b := Eval vm_compute in se_out [se_r1 3 6; SAcc 1 0 m11_0; SAcc 1 0 m12_0; SR2 se_draws; SGet2 0] se_party1.
(** what party 0 is given before it runs round 3 a second time *)
Definition se_again : list sop := [SAcc 1 1 m11_1b; SAcc 1 1 m12_1b; SR2 se_draws; SAcc 2 1 m2_1b].
Definition garbage : bytes := b64_enc (str "garbage").
