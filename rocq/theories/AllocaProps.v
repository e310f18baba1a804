(** C126: CYBOZU_ALIGNED_ALLOCA (inttype.hpp). *)
Require Import Verif.Common Verif.AllocaModel.

(** * Specification *)
(** what alloca guarantees: a block of the size asked for, inside the address space *)
Definition block (alloca : Z -> Z) (n : Z) : Prop := 0 < alloca n /\ alloca n + n <= 2 ^ 64.
(** gcc and clang on x86-64 align it to 16 *)
Definition alloca_x64 (alloca : Z -> Z) : Prop := forall n, (16 | alloca n).
(** the x bytes from r on are all in the n bytes from p on *)
Definition within (r x p n : Z) : Prop := forall i, 0 <= i < x -> p <= r + i < p + n.
Definition request (x align : Z) : Prop := 0 < x /\ x + align - 1 < 2 ^ 64 /\ exists k, 0 <= k < 64 /\ align = 2 ^ k.

Lemma mask_land p k : 0 <= p < 2 ^ 64 -> 0 <= k < 64 -> Z.land p (mask (2 ^ k)) = p - p mod 2 ^ k.
Proof.
  intros Hp Hk. unfold mask. assert (K : 0 < 2 ^ k) by (apply Z.pow_pos_nonneg; lia). assert (K' : 2 ^ k < 2 ^ 64) by (apply Z.pow_lt_mono_r; lia).
  rewrite Z.mod_small by lia. replace (2 ^ 64 - 1 - (2 ^ k - 1)) with (Z.ldiff (Z.ones 64) (Z.ones k)).
  2:{ replace (Z.ldiff (Z.ones 64) (Z.ones k)) with (Z.ones 64 - Z.ones k).
      { rewrite !Z.ones_equiv. lia. }
      apply Z.sub_nocarry_ldiff. apply Z.bits_inj'. intros i Hi. rewrite Z.ldiff_spec, Z.bits_0, !Z.testbit_ones by lia.
      destruct (Z.leb_spec 0 i); [|lia]. destruct (Z.ltb_spec i k), (Z.ltb_spec i 64); cbn; try reflexivity; lia. }
  assert (E : Z.land p (Z.ldiff (Z.ones 64) (Z.ones k)) = Z.ldiff p (Z.ones k)).
  { apply Z.bits_inj'. intros i Hi. rewrite Z.land_spec, !Z.ldiff_spec, !Z.testbit_ones by lia. destruct (Z.leb_spec 0 i); [|lia]. cbn [andb].
    destruct (Z.ltb_spec i 64) as [L|L]; cbn [andb]; [reflexivity|]. rewrite andb_false_r. symmetry.
    destruct (Z.eq_dec p 0) as [->|NZ]; [now rewrite Z.bits_0|]. rewrite Z.bits_above_log2; [reflexivity|lia|]. assert (Z.log2 p < 64) by (apply Z.log2_lt_pow2; lia). lia. }
  rewrite E, Z.ldiff_ones_r, Z.shiftl_mul_pow2, Z.shiftr_div_pow2 by lia. pose proof (Z.div_mod p (2 ^ k) ltac:(lia)). lia.
Qed.
Lemma result alloca x align : request x align -> block alloca (block_size x align) ->
  0 < align /\ block_size x align = x + align - 1 /\ aligned_alloca alloca x align = alloca (block_size x align) - alloca (block_size x align) mod align.
Proof.
  intros (Hx & Hn & k & Hk & ->) (B1 & B2). assert (K : 0 < 2 ^ k) by (apply Z.pow_pos_nonneg; lia). split; [exact K|].
  assert (E : block_size x (2 ^ k) = x + 2 ^ k - 1) by (unfold block_size; apply Z.mod_small; lia). split; [exact E|]. unfold aligned_alloca. apply mask_land; [|lia].
  rewrite E in *. lia.
Qed.
(** C126: the address is a multiple of the alignment, less than one alignment away from the block *)
Theorem C126_aligned alloca x align : request x align -> block alloca (block_size x align) ->
  (align | aligned_alloca alloca x align) /\ alloca (block_size x align) - align < aligned_alloca alloca x align <= alloca (block_size x align).
Proof.
  intros R B. destruct (result _ _ _ R B) as (A & _ & ->). set (p := alloca _). pose proof (Z.mod_pos_bound p align A). pose proof (Z.div_mod p align ltac:(lia)) as D.
  split; [|lia]. exists (p / align). lia.
Qed.
(** C126: the x bytes are in the allocated block exactly if alloca's address already has the alignment *)
Theorem C126_within alloca x align : request x align -> block alloca (block_size x align) ->
  (within (aligned_alloca alloca x align) x (alloca (block_size x align)) (block_size x align) <-> (align | alloca (block_size x align))).
Proof.
  intros R B. destruct (result _ _ _ R B) as (A & N & E). rewrite E. clear E. rewrite N in *. set (p := alloca _) in *. pose proof (Z.mod_pos_bound p align A).
  destruct R as (Hx & _). rewrite <- Z.mod_divide by lia. split.
  - intros W. specialize (W 0 ltac:(lia)). lia.
  - intros -> i Hi. lia.
Qed.
(** C126: so on x86-64 an alignment up to 16 is safe *)
Theorem C126_upto16 alloca x align : alloca_x64 alloca -> request x align -> align <= 16 -> block alloca (block_size x align) ->
  (align | aligned_alloca alloca x align) /\ within (aligned_alloca alloca x align) x (alloca (block_size x align)) (block_size x align).
Proof.
  intros X R L B. split; [now apply C126_aligned|]. apply C126_within; auto. apply Z.divide_trans with 16; [|apply X].
  destruct R as (_ & _ & k & Hk & ->). assert (K : k <= 4).
  { destruct (Z_le_gt_dec k 4) as [|G]; auto. assert (2 ^ 5 <= 2 ^ k) by (apply Z.pow_le_mono_r; lia). lia. }
  exists (2 ^ (4 - k)). rewrite <- Z.pow_add_r by lia. now replace (4 - k + k) with 4 by lia.
Qed.
Definition at_4112 : Z -> Z := fun _ => 4112.
Example C126_case : alloca_x64 at_4112 /\ request 100 16 /\ block at_4112 (block_size 100 16) /\ aligned_alloca at_4112 100 16 = 4112.
Proof.
  split; [intros n; exists 257; reflexivity|]. split; [split; [lia|]; split; [lia|]; exists 4; split; [lia|reflexivity]|].
  split; [split; [reflexivity|vm_compute; discriminate]|reflexivity].
Qed.
(** ** Finding: CYBOZU_ALIGNED_ALLOCA rounds the address down, not up. For every alignment above 16 and every size there is an address of alloca
    for which the returned memory starts before the allocated block, on the part of the stack that other data uses *)
Theorem C126_before_block_finding x k : 5 <= k < 63 -> 0 < x < 2 ^ 62 ->
  exists alloca, alloca_x64 alloca /\ request x (2 ^ k) /\ block alloca (block_size x (2 ^ k)) /\ aligned_alloca alloca x (2 ^ k) < alloca (block_size x (2 ^ k)).
Proof.
  intros Hk Hx. assert (K1 : 2 ^ 5 <= 2 ^ k) by (apply Z.pow_le_mono_r; lia). assert (K2 : 2 ^ k <= 2 ^ 62) by (apply Z.pow_le_mono_r; lia).
  assert (R : request x (2 ^ k)) by (split; [lia|]; split; [lia|]; exists k; split; [lia|reflexivity]).
  exists (fun _ => 2 ^ k + 16).
  assert (X : alloca_x64 (fun _ => 2 ^ k + 16)).
  { intros _. apply Z.divide_add_r; [|exists 1; reflexivity]. exists (2 ^ (k - 4)). change 16 with (2 ^ 4). rewrite <- Z.pow_add_r by lia. f_equal. lia. }
  assert (B : block (fun _ => 2 ^ k + 16) (block_size x (2 ^ k))).
  { assert (E : block_size x (2 ^ k) = x + 2 ^ k - 1) by (unfold block_size; apply Z.mod_small; lia). rewrite E. split; lia. }
  split; [exact X|]. split; [exact R|]. split; [exact B|]. destruct (result _ _ _ R B) as (_ & _ & ->).
  replace (2 ^ k + 16) with (16 + 1 * 2 ^ k) by lia. rewrite Z.mod_add, Z.mod_small by lia. lia.
Qed.
Example C126_finding_case : aligned_alloca at_4112 100 64 = 4096 /\ ~ within (aligned_alloca at_4112 100 64) 100 4112 (block_size 100 64).
Proof. split; [reflexivity|]. intros W. specialize (W 0 ltac:(lia)). change (aligned_alloca at_4112 100 64) with 4096 in W. lia. Qed.

Print Assumptions C126_aligned.
Print Assumptions C126_within.
Print Assumptions C126_upto16.
Print Assumptions C126_before_block_finding.
