(** * Go's fixed-width signed integers: two's complement wraparound on [Z]. *)
From Verif Require Import Base.
Local Open Scope Z_scope.

Definition wrap64 (z : Z) : Z := (z + 2 ^ 63) mod 2 ^ 64 - 2 ^ 63.
Definition wrap32 (z : Z) : Z := (z + 2 ^ 31) mod 2 ^ 32 - 2 ^ 31.
Definition wrap8 (z : Z) : Z := (z + 2 ^ 7) mod 2 ^ 8 - 2 ^ 7.
(** Conversion to the unsigned type of the same width. *)
Definition to_u64 (z : Z) : N := Z.to_N (z mod 2 ^ 64).
Definition to_u32 (z : Z) : N := Z.to_N (z mod 2 ^ 32).
Definition to_u8 (z : Z) : N := Z.to_N (z mod 2 ^ 8).

Definition int64 (z : Z) : Prop := - 2 ^ 63 <= z < 2 ^ 63.
Definition int32 (z : Z) : Prop := - 2 ^ 31 <= z < 2 ^ 31.
Definition int8 (z : Z) : Prop := - 2 ^ 7 <= z < 2 ^ 7.

Lemma wrap64_int z : int64 (wrap64 z).
Proof. unfold int64, wrap64. pose proof (Z.mod_pos_bound (z + 2 ^ 63) (2 ^ 64)). lia. Qed.
Lemma wrap64_id z : int64 z -> wrap64 z = z.
Proof. unfold int64, wrap64. intros. rewrite Z.mod_small; lia. Qed.
Lemma wrap32_id z : int32 z -> wrap32 z = z.
Proof. unfold int32, wrap32. intros. rewrite Z.mod_small; lia. Qed.
Lemma wrap8_id z : int8 z -> wrap8 z = z.
Proof. unfold int8, wrap8. intros. rewrite Z.mod_small; lia. Qed.

Lemma wrap64_add_l a b : wrap64 (wrap64 a + b) = wrap64 (a + b).
Proof.
  unfold wrap64. f_equal. replace ((a + 2 ^ 63) mod 2 ^ 64 - 2 ^ 63 + b + 2 ^ 63) with ((a + 2 ^ 63) mod 2 ^ 64 + b) by lia.
  rewrite Z.add_mod_idemp_l by lia. f_equal. lia.
Qed.
Lemma wrap64_add_r a b : wrap64 (a + wrap64 b) = wrap64 (a + b).
Proof. rewrite Z.add_comm, wrap64_add_l. f_equal. lia. Qed.

Lemma wrap64_u64 z : wrap64 (Z.of_N (to_u64 z)) = wrap64 z.
Proof.
  unfold wrap64, to_u64. rewrite Z2N.id by (apply Z.mod_pos_bound; lia). f_equal. apply Z.add_mod_idemp_l. lia.
Qed.
Lemma wrap32_u32 z : wrap32 (Z.of_N (to_u32 z)) = wrap32 z.
Proof.
  unfold wrap32, to_u32. rewrite Z2N.id by (apply Z.mod_pos_bound; lia). f_equal. apply Z.add_mod_idemp_l. lia.
Qed.
Lemma wrap8_u8 z : wrap8 (Z.of_N (to_u8 z)) = wrap8 z.
Proof.
  unfold wrap8, to_u8. rewrite Z2N.id by (apply Z.mod_pos_bound; lia). f_equal. apply Z.add_mod_idemp_l. lia.
Qed.
Lemma to_u64_lt z : (to_u64 z < 2 ^ 64)%N.
Proof. unfold to_u64. pose proof (Z.mod_pos_bound z (2 ^ 64)). lia. Qed.
Lemma to_u32_lt z : (to_u32 z < 2 ^ 32)%N.
Proof. unfold to_u32. pose proof (Z.mod_pos_bound z (2 ^ 32)). lia. Qed.
Lemma to_u8_lt z : (to_u8 z < 2 ^ 8)%N.
Proof. unfold to_u8. pose proof (Z.mod_pos_bound z (2 ^ 8)). lia. Qed.
