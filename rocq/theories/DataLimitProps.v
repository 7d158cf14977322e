(* C35 and C80 once more: copies of data blocks of any size, and positions of 2^31 and more in int blocks *)
From Verif Require Import Base HexModel DataModel DataSpec DataProofs DataProps.
From Verif Require IntsModel IntsSpec IntsProofs.
From Verif Require HexProofs.
From Coq Require Import ZifyBool.
Ltac Zify.zify_post_hook ::= Z.div_mod_to_equations.
Import HexProofs (len_map, len_skipn, len_repeat).

(* The copy has as many of the first bytes as the size modulo 2^32 says *)
Theorem C35_data_copy_exact a x c : holds x c -> no_null x ->
  data_copy (Some (a, x)) = Ok (Some (Some (map Some (firstn (Z.to_nat (len c mod 2^32)) c)), len c mod 2^32)).
Proof.
  intros Hx N. pose proof Hx as (_ & Sx & _). destruct (holds_bytes _ _ Hx) as [(r & B)|(B & _)]; [|contradiction].
  pose proof (len_nonneg c). unfold data_copy. rewrite Sx. unfold u32. set (n := len c mod 2^32). assert (0 <= n < 2^32 /\ n <= len c) as (Hn & Hl) by (unfold n; lia). clearbody n.
  rewrite B. unfold data_new. rewrite u64_id by (unfold in_u64; lia). replace (n + 16 - 16) with n by lia.
  change (malloc n) with (map Some (@nil Z) ++ malloc n).
  assert (L : length (firstn (Z.to_nat n) c) = Z.to_nat n) by (rewrite firstn_length; unfold len in Hl; lia).
  rewrite (copy_in_spec Strict [] (malloc n) (Some (c ++ r)) (firstn (Z.to_nat n) c) n 0); eauto.
  - cbn [bind app]. rewrite skipn_all2, app_nil_r; [reflexivity|]. unfold malloc. rewrite repeat_length. lia.
  - unfold len. lia.
  - unfold malloc. rewrite len_repeat. lia.
  - left. exists (skipn (Z.to_nat n) c ++ r). rewrite app_assoc, firstn_skipn. reflexivity.
Qed.
Print Assumptions C35_data_copy_exact.

(* A value further back is found at its position minus 2^32, which is a negative number *)
Theorem C80_find_exact p v pre suf : IntsSpec.valid_ptr p -> IntsSpec.contents p = pre ++ v :: suf -> ~ In v pre ->
  IntsModel.ints_find p v = len pre - (if len pre <? 2^31 then 0 else 2^32).
Proof.
  intros V E N. destruct p as [[a l]|]; [|destruct pre; discriminate]. cbn [IntsSpec.contents IntsSpec.valid_ptr IntsModel.ints_find] in *. subst l. destruct V as (_ & L & _). rewrite len_app, len_cons in L.
  pose proof (len_nonneg pre). pose proof (len_nonneg suf). rewrite IntsProofs.ifind_at; auto; try lia. unfold s32. destruct (Z.ltb_spec (len pre) (2^31)); lia.
Qed.
Print Assumptions C80_find_exact.

Example C35_example_copy_exact : holds (mkData (Some [1; 2; 3]) 2) [1; 2] /\ data_copy (Some (9, mkData (Some [1; 2; 3]) 2)) = Ok (Some (Some [Some 1; Some 2], 2)).
Proof. split; [split; [repeat constructor; unfold is_byte; lia|split; [reflexivity|exists [3]; reflexivity]]|reflexivity]. Qed.

Example C80_example_find_exact : exists p v pre suf, IntsSpec.valid_ptr p /\ IntsSpec.contents p = pre ++ v :: suf /\ ~ In v pre /\ len pre = 2^31.
Proof.
  assert (exists n, n = 2^31) as (n & Hn) by eauto. exists (Some (100, repeat 0 (Z.to_nat n) ++ [1])), 1, (repeat 0 (Z.to_nat n)), []. cbn [IntsSpec.valid_ptr IntsSpec.contents].
  assert (L : len (repeat 0 (Z.to_nat n)) = n) by (rewrite len_repeat; lia). split; [|split; [auto|split; [intros H; apply repeat_spec in H; discriminate|rewrite L; auto]]].
  split; [destruct (repeat 0 (Z.to_nat n)); discriminate|]. split; [rewrite len_app, L; cbn; lia|]. apply Forall_app. split; [|repeat constructor; unfold in_s32; lia].
  apply Forall_forall. intros x Hx. apply repeat_spec in Hx. subst. unfold in_s32. lia.
Qed.
