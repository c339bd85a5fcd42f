#!/bin/sh
# older mutation runs name theorems without the _partial suffix: bring the log up to date
for t in C09_same_srid C10_sign_round1_rejected_no_change C11_sign_accept_never_panics C12_sign_round1_slots_accepted C19_signed_bytes_are_given C21_each_signer C23_accepted_paths C27_panics_only_on_unreadable C40_table_products C42_pedersen_complete C43_each_party_its_record C45_roundtrip C47_returns_with_room C50_schedule; do
  sed -i "s/\"$t\"/\"${t}_partial\"/g" seeded/LOG.jsonl
done
