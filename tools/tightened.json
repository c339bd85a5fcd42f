{
 "kg_challenge|map Some [px X; py X; px A; py A]": {
  "tightened": [
   "C08_challenge_binds"
  ],
  "note": "survived: no theorem pinned what the keygen challenge hashes; C08_challenge_binds added, which fails on this edit"
 },
 "exclude|filter (fun p => key_int p =? key_int e) l": {
  "tightened": [
   "C04_exclude",
   "C04_find_by_key"
  ],
  "note": "survived: Exclude was modelled but no theorem spoke of it; C04_exclude added, which fails on this edit"
 },
 "path_parts|Ret parts": {
  "tightened": [
   "C51_resume",
   "C51_end_of_path"
  ],
  "note": "the failing theorem only broke in its script (private/public agreement is still true of the edited program); C51_resume and C51_end_of_path added, false of it"
 },
 "zkv_verify|if true then": {
  "tightened": [
   "C25_zkv_accepted"
  ],
  "note": "acceptance now stated for every proof, with the commitment on the curve"
 },
 "zk_challenge|px alpha; py alpha])).  ": {
  "tightened": [
   "C25_zk_accepted"
  ],
  "note": "the accepted challenge is now stated as the digest of the full list"
 },
 "enc_parts|[to_be (cf_lae q); to_be K;": {
  "tightened": [
   "C53_enc_challenge_binds"
  ],
  "note": "only the concrete example failed at first; C53_enc_challenge_binds and C53_log_challenge_binds_partial were added and fail under this edit"
 }
}