(** HashProps.v -- property theorems for util/hash.cc (C11, C12). *)
From Coq Require Import List NArith Arith Lia Bool.
From Verif Require Import Outcome Coding CodingSpec Hash HashSpec HashProofs.
Import ListNotations.
Local Open Scope N_scope.

(** ** C11 -- the result is the formula applied to exactly the n bytes, whatever
    the rest of memory holds (a read outside memory would be [UB]) *)
Theorem C11_hash_formula : forall m data n seed,
  bytes_ok m -> (data + n <= length m)%nat -> seed < 2 ^ 32 ->
  Hash m data n seed = Ret (hash_spec (bytes_at m data n) seed) /\
  hash_spec (bytes_at m data n) seed < 2 ^ 32.
Proof.
  intros m data n seed Hm Hb Hs. split; [exact (Hash_eq m data n seed Hm Hb Hs)|].
  apply hash_spec_lt, Hs.
Qed.
Print Assumptions C11_hash_formula.

(** two calls seeing the same n bytes agree, wherever these lie; memory may end
    right after them, so nothing beyond is read *)
Theorem C11_hash_depends_on_bytes_only : forall pre post bs seed,
  bytes_ok bs -> seed < 2 ^ 32 ->
  Hash (pre ++ bs ++ post) (length pre) (length bs) seed = Hash bs 0 (length bs) seed.
Proof.
  intros pre post bs seed Hok Hs. rewrite Hash_at by assumption.
  pose proof (Hash_at [] bs [] seed Hok Hs) as H. rewrite app_nil_r in H. symmetry. exact H.
Qed.
Print Assumptions C11_hash_depends_on_bytes_only.

(** the vectors of util/hash_test.cc *)
Example C11_vectors :
  Hash [] 0 0 0xbc9f1d34 = Ret 0xbc9f1d34 /\
  Hash [0x62] 0 1 0xbc9f1d34 = Ret 0xef1345c4 /\
  Hash [0xc3; 0x97] 0 2 0xbc9f1d34 = Ret 0x5b663814 /\
  Hash [0xe2; 0x99; 0xa5] 0 3 0xbc9f1d34 = Ret 0x323c078f /\
  Hash [0xe1; 0x80; 0xb9; 0x32] 0 4 0xbc9f1d34 = Ret 0xed21633a.
Proof. repeat split; vm_compute; reflexivity. Qed.

(** ** C12 *)
(** for fixed data, each 32-bit result comes from exactly one seed *)
Theorem C12_hash_bijective_in_seed : forall m data n,
  bytes_ok m -> (data + n <= length m)%nat ->
  (forall s s' h, s < 2 ^ 32 -> s' < 2 ^ 32 ->
     Hash m data n s = Ret h -> Hash m data n s' = Ret h -> s = s') /\
  (forall h, h < 2 ^ 32 -> exists s, s < 2 ^ 32 /\ Hash m data n s = Ret h).
Proof.
  intros m data n Hm Hb. split.
  - intros s s' h Hs Hs'. rewrite !Hash_eq by assumption. intros E E'. injection E as E. injection E' as E'.
    eapply hash_spec_seed_inj; [exact Hs|exact Hs'|]. rewrite E. symmetry. exact E'.
  - intros h Hh. destruct (hash_spec_seed_surj (bytes_at m data n) h Hh) as (s & Hs & E).
    exists s. split; [exact Hs|]. rewrite Hash_eq, E by assumption. reflexivity.
Qed.
Print Assumptions C12_hash_bijective_in_seed.

(** inputs of equal length that differ inside one aligned word, or only inside
    the 1-3 byte tail, never collide *)
Theorem C12_hash_injective_in_word : forall before w w' after seed,
  bytes_ok before -> bytes_ok w -> bytes_ok w' -> bytes_ok after -> seed < 2 ^ 32 ->
  (length before mod 4 = 0)%nat -> length w = length w' ->
  (length w = 4 \/ (length w < 4 /\ after = []))%nat ->
  w <> w' ->
  Hash (before ++ w ++ after) 0 (length (before ++ w ++ after)) seed
  <> Hash (before ++ w' ++ after) 0 (length (before ++ w' ++ after)) seed.
Proof.
  intros before w w' after seed Hb Hw Hw' Ha Hs Hm HL Hc Hne E. apply Hne.
  rewrite !Hash_eq in E
    by (try exact Hs; try lia; unfold bytes_ok in *; rewrite !Forall_app; auto).
  unfold bytes_at in E. cbn [skipn] in E. rewrite !firstn_all in E. injection E as E.
  eapply hash_spec_word_inj; eassumption.
Qed.
Print Assumptions C12_hash_injective_in_word.

(** ... and any single aligned word can steer the hash to any value *)
Theorem C12_hash_surjective_in_word : forall before after seed h,
  bytes_ok before -> bytes_ok after -> seed < 2 ^ 32 -> (length before mod 4 = 0)%nat -> h < 2 ^ 32 ->
  exists w, bytes_ok w /\ length w = 4%nat /\
    Hash (before ++ w ++ after) 0 (length (before ++ w ++ after)) seed = Ret h.
Proof.
  intros before after seed h Hb Ha Hs Hm Hh.
  destruct (hash_spec_word_surj before after seed h Hm Hh) as (w & Hw & HL & E).
  exists w. split; [exact Hw|]. split; [exact HL|].
  rewrite Hash_eq by (try exact Hs; try lia; unfold bytes_ok in *; rewrite !Forall_app; auto).
  unfold bytes_at. cbn [skipn]. rewrite firstn_all, E. reflexivity.
Qed.
Print Assumptions C12_hash_surjective_in_word.

Example C12_case :
  Hash [1;2;3;4;5;6;7;8;9] 0 9 1 <> Hash [1;2;3;4;5;6;7;9;9] 0 9 1 /\
  Hash [1;2;3;4;5;6;7;8;9] 0 9 1 <> Hash [1;2;3;4;5;6;7;8;9] 0 9 2.
Proof. split; vm_compute; discriminate. Qed.
