(* C96: allocations on 32-bit platforms *)
From Verif Require Import Base HexModel HexSpec HexProofs HexProps DataModel DataSpec DataProofs DataProps Size32Model.

Lemma u32_u64 z : 0 <= z < 2^32 -> u32 z = u64 z.
Proof. intros. rewrite u32_id, u64_id; unfold in_u32, in_u64; lia. Qed.
Lemma bin2hex32_same data n upper : 0 <= n < 2^31 -> bin2hex32 data n upper = bin2hex data n upper.
Proof. intros. unfold bin2hex32, bin2hex. rewrite (u32_u64 (2 * n + 1)) by lia. reflexivity. Qed.
Lemma count32_same : forall args cs t n o, Forall2 (fun a c => holds (snd a) c) args cs -> 0 <= t -> t + len (concat cs) < 2^32 -> concat_count32 args t n o = concat_count args t n o.
Proof.
  induction args as [|(a, x) args IH]; intros cs t n o F T L; [reflexivity|]. inversion F as [|? c ? cs' (Hb & Hs & _) F']; subst. cbn [snd concat_count32 concat_count] in *. cbn [concat] in L. rewrite len_app in L. pose proof (len_nonneg c). pose proof (len_nonneg (concat cs')).
  rewrite Hs, u32_u64 by lia. rewrite u64_id by (unfold in_u64; lia). destruct (len c =? 0); apply (IH cs'); auto; lia.
Qed.

(* Conversion to hex, of less than 2 GB *)
Theorem C96_hex_partial bs after upper rest buf :
  bs <> [] -> Forall is_byte (bs ++ after) -> len bs < 2^31 -> len bs <= len buf ->
  exists txt,
    bin2hex32 (bs ++ after) (len bs) upper = Ok (map Some (c_string txt [])) /\
    data2hex32 (Some (bs ++ after, len bs)) upper = Ok (Some (map Some (c_string txt []))) /\
    len txt = 2 * len bs /\ Forall (in_case upper) txt /\ Forall (fun c => c <> 0) txt /\
    hex2bytes (Some (c_string txt rest)) (-1) = Ok (Some (map Some bs)) /\
    hex2bin (Some (c_string txt rest)) (len txt) (Some buf) = Ok (true, Some (map Some bs ++ skipn (length bs) buf)).
Proof.
  intros N B L Lb. pose proof (len_nonneg bs). destruct (C26_hex_round_trip bs after upper rest buf N B ltac:(lia) Lb) as (txt & E1 & E2 & E3 & E4 & E5 & E6 & _ & E8). exists txt.
  assert (X : bin2hex32 (bs ++ after) (len bs) upper = Ok (map Some (c_string txt []))) by (rewrite bin2hex32_same by lia; exact E1).
  split; [exact X|]. split; [cbn [data2hex32]; rewrite X; reflexivity|]. auto.
Qed.
Print Assumptions C96_hex_partial.
Example C96_example_hex : bin2hex32 [171; 5] 2 false = Ok (map Some [97;98;48;53;0]).
Proof. reflexivity. Qed.

(* 2 GB: one byte is allocated, and it is overrun *)
Theorem C96_hex_refuted : exists bs upper, Forall is_byte bs /\ len bs = 2^31 /\ bin2hex32 bs (len bs) upper = Fail OobWrite.
Proof.
  exists (repeat 0 (Z.to_nat (2^31))), true. assert (L : len (repeat 0 (Z.to_nat (2^31))) = 2^31) by (rewrite len_repeat; lia). split; [|split; [exact L|]].
  - apply Forall_forall. intros z Hz. apply repeat_spec in Hz. subst. unfold is_byte. lia.
  - unfold bin2hex32. rewrite L. change (malloc (u32 (2 * 2^31 + 1))) with [@None Z]. remember (Z.to_nat (2^31)) as N eqn:EN. destruct N as [|N]; [lia|]. cbn [bin2hex_loop repeat]. change (0 <? 2^31) with true. cbv iota.
    unfold rd at 1. cbn [repeat] in L. rewrite L. change ((0 <=? 0) && (0 <? 2^31)) with true. cbn [Z.to_nat nth_error bind]. reflexivity.
Qed.
Print Assumptions C96_hex_refuted.

(* Concatenation, if the total size is less than 4 GB (and no NULL gets to memcpy, as in C32) *)
Theorem C96_concat_partial d a x args c cs :
  holds x c -> Forall2 (fun p c => holds (snd p) c) args cs -> d = Wrap \/ (no_null x /\ Forall (fun p => no_null (snd p)) args) ->
  len (concat (c :: cs)) < 2^32 -> len args + 1 < 2^32 ->
  exists r, bytes_concat32 d (Some (a, x)) args = Ok r /\
    match r with
    | NewBytes out => out = map Some (concat (c :: cs)) /\ 2 <= len (nonempty (c :: cs))
    | RefBytes b => (exists y e, In (b, y) ((a, x) :: args) /\ holds y e /\ e = concat (c :: cs)) /\ len (nonempty (c :: cs)) <= 1
    | NullBytes => False
    end.
Proof.
  intros Hx F Hd Ht Hn. destruct (C32_bytes_concat_partial d a x args c cs Hx F Hd ltac:(lia) Hn) as (r & E & M). exists r. split; [|exact M]. rewrite <- E. unfold bytes_concat32, bytes_concat. pose proof Hx as (_ & Sx & _). rewrite Sx.
  cbn [concat] in Ht. rewrite len_app in Ht. pose proof (len_nonneg c). rewrite !(count32_same args cs) by (auto; lia). reflexivity.
Qed.
Print Assumptions C96_concat_partial.
Example C96_example_concat : bytes_concat32 Strict (Some (1, mkData (Some [1; 2]) 2)) [(2, mkData (Some [7]) 0); (3, mkData (Some [3]) 1)] = Ok (NewBytes [Some 1; Some 2; Some 3]).
Proof. reflexivity. Qed.

Lemma five n c : 0 < n < 2^32 -> 5 * n = n + 2^32 -> len c = n -> bytes_concat32 Strict (Some (1, mkData (Some c) n)) [(1, mkData (Some c) n); (1, mkData (Some c) n); (1, mkData (Some c) n); (1, mkData (Some c) n)] = Fail OobWrite.
Proof.
  intros B Hn L. assert (M : len (malloc n) = n) by (unfold malloc; rewrite len_repeat; lia). unfold bytes_concat32. cbn [size bytes]. destruct (Z.eqb_spec n 0); [lia|]. cbn [concat_count32 size]. destruct (Z.eqb_spec n 0); [lia|].
  assert (X : u32 (u32 (u32 (u32 (n + n) + n) + n) + n) = n).
  { unfold u32. rewrite !Zplus_mod_idemp_l. symmetry. apply (Z.mod_unique_pos _ _ 1); lia. }
  rewrite X. change (u32 (u32 (u32 (u32 (1 + 1) + 1) + 1) + 1)) with 5. change (5 =? 0) with false. change (5 =? 1) with false. cbv iota zeta. set (m := malloc n) in *. clearbody m.
  unfold copy_in at 1. rewrite L, M. rewrite Z.leb_refl. change (0 <=? 0) with true. cbn [andb]. rewrite Z.add_0_l, Z.leb_refl. cbn [bind concat_copy bytes size].
  unfold copy_in at 1. rewrite L, Z.leb_refl. rewrite !len_app, len_map.
  replace (len (firstn (Z.to_nat 0) m)) with 0 by reflexivity. replace (len (firstn (Z.to_nat n) c)) with n by (unfold len in *; rewrite firstn_length; lia). replace (len (skipn (Z.to_nat n) m)) with 0 by (unfold len in *; rewrite skipn_length; lia).
  replace ((0 <=? n) && (n + n <=? 0 + (n + 0))) with false by lia. reflexivity.
Qed.
(* The same block of 1 GB five times: 1 GB is allocated, and it is overrun *)
Theorem C96_concat_refuted : exists a x c, holds x c /\ no_null x /\ len c = 2^30 /\ bytes_concat32 Strict (Some (a, x)) [(a, x); (a, x); (a, x); (a, x)] = Fail OobWrite.
Proof.
  exists 1, (mkData (Some (repeat 0 (Z.to_nat (2^30)))) (2^30)), (repeat 0 (Z.to_nat (2^30))).
  assert (L : len (repeat 0 (Z.to_nat (2^30))) = 2^30) by (rewrite len_repeat; lia).
  split; [|split; [discriminate|split; [exact L|exact (five (2^30) _ ltac:(lia) ltac:(lia) L)]]].
  split; [|split; [symmetry; exact L|exists []; rewrite app_nil_r; reflexivity]].
  apply Forall_forall. intros z Hz. apply repeat_spec in Hz. subst. unfold is_byte. lia.
Qed.
Print Assumptions C96_concat_refuted.

(* Copies, of everything that may exist along with its copy *)
Theorem C96_copy_partial a x c : holds x c -> no_null x -> len c < 2^32 - 8 -> data_copy32 (Some (a, x)) = Ok (Some (Some (map Some c), len c)) /\ data_new32 (bytes x) (len c) = Ok (Some (map Some c), len c) /\ data_new32 None (len c) = Ok (None, 0).
Proof.
  intros Hx N L. pose proof Hx as (_ & Sx & _). destruct (holds_bytes _ _ Hx) as [(r & B)|(B & _)]; [|contradiction]. pose proof (len_nonneg c).
  assert (E : data_new32 (bytes x) (len c) = Ok (Some (map Some c), len c)).
  { rewrite B. unfold data_new32. rewrite u32_id by (unfold in_u32; lia). destruct (Z.ltb_spec (len c + 8) 8); [lia|]. replace (len c + 8 - 8) with (len c) by lia.
    change (malloc (len c)) with (map Some (@nil Z) ++ malloc (len c)). rewrite (copy_in_spec Strict [] (malloc (len c)) (Some (c ++ r)) c (len c) 0); eauto.
    - cbn [bind app]. rewrite skipn_all2, app_nil_r; [reflexivity|]. unfold malloc. rewrite repeat_length. unfold len. lia.
    - unfold malloc. rewrite len_repeat. lia. }
  assert (E0 : data_new32 None (len c) = Ok (None, 0)).
  { unfold data_new32. rewrite u32_id by (unfold in_u32; lia). destruct (Z.ltb_spec (len c + 8) 8); [lia|]. reflexivity. }
  split; [|split; [exact E|exact E0]]. unfold data_copy32. rewrite Sx, u32_id by (unfold in_u32; lia). rewrite E. reflexivity.
Qed.
Print Assumptions C96_copy_partial.
Example C96_example_copy : data_copy32 (Some (1, mkData (Some [5;0;6;9]) 3)) = Ok (Some (Some [Some 5; Some 0; Some 6], 3)).
Proof. reflexivity. Qed.
(* Without data, and with the largest size: not even the structure is allocated *)
Theorem C96_copy_refuted : exists n, in_u32 n /\ data_new32 None n = Fail OobWrite.
Proof. exists (2^32 - 1). split; [unfold in_u32; lia|reflexivity]. Qed.
Print Assumptions C96_copy_refuted.
