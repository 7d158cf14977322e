(* Properties C31-C35 and C78: data blocks *)
From Verif Require Import Base HexModel DataModel DataSpec DataProofs.
From Verif Require HexProofs.
From Coq Require Import ZifyBool.
Ltac Zify.zify_post_hook ::= Z.div_mod_to_equations.
Import HexProofs (len_map, len_skipn, len_repeat).

(* what a function with a boolean result decides *)
Definition decides (r : res bool) (P : Prop) : Prop := exists b, r = Ok b /\ (b = true <-> P).

(* a small structure used in examples: address, bytes *)
Definition blk (a : Z) (c : list Z) : Z * gdata := (a, mkData (Some (c ++ [99])) (len c)).
Definition nul (a : Z) : Z * gdata := (a, mkData None 0).

(* ------------------------------------------------------------------ C31 *)
(* ISO C: comparing two empty blocks with NULL pointers passes NULL to memcmp *)
Theorem C31_data_compare_refuted : exists x y,
  holds x [] /\ holds y [] /\
  data_equal Strict (Some (1, x)) (Some (2, y)) = Fail NullDeref /\
  data_has_prefix Strict (Some (1, x)) (Some (2, y)) = Fail NullDeref /\
  data_has_suffix Strict (Some (1, x)) (Some (2, y)) = Fail NullDeref.
Proof.
  exists (mkData None 0), (mkData None 0). repeat split; constructor.
Qed.
Print Assumptions C31_data_compare_refuted.

Lemma cmp_at d x c y p off : holds x c -> holds y p -> d = Wrap \/ (no_null x /\ no_null y) ->
  0 <= off -> off + len p <= len c ->
  exists k, memcmp d (advance (bytes x) off) (bytes y) (len p) = Ok k /\
    (k = 0 <-> firstn (length p) (skipn (Z.to_nat off) c) = p).
Proof.
  intros Hx Hy Hd H0 H1.
  destruct (holds_bytes _ _ Hx) as [Bx|(Bx & ->)]; destruct (holds_bytes _ _ Hy) as [By|(By & ->)].
  - apply memcmp_at; auto.
  - destruct Hd as [->|(_ & N)]; [|contradiction]. exists 0. rewrite By. split; [apply memcmp_null; auto|]. cbn. tauto.
  - destruct Hd as [->|(N & _)]; [|contradiction].
    assert (p = []) as -> by (destruct p; [auto|rewrite len_cons in H1; pose proof (len_nonneg p); change (len (@nil Z)) with 0 in H1; lia]).
    exists 0. rewrite Bx. split; [apply memcmp_null; auto|]. cbn. tauto.
  - destruct Hd as [->|(N & _)]; [|contradiction]. exists 0. rewrite Bx. split; [apply memcmp_null; auto|]. cbn. tauto.
Qed.

Lemma firstn_all_iff (c p : list Z) : len p = len c -> (firstn (length p) c = p <-> c = p).
Proof.
  intros H. replace (length p) with (length c) by (unfold len in H; lia). rewrite firstn_all. tauto.
Qed.

(* Missing: NULL data pointers if memcmp does not accept them (only for empty blocks) *)
Theorem C31_data_compare_partial : forall d p q a b x y c e,
  p = Some (a, x) -> q = Some (b, y) -> holds x c -> holds y e -> coherent p q ->
  d = Wrap \/ (no_null x /\ no_null y) ->
  decides (data_equal d p q) (c = e) /\
  decides (data_has_prefix d p q) (prefix_of e c) /\
  decides (data_has_suffix d p q) (suffix_of e c).
Proof.
  intros d p q a b x y c e -> -> Hx Hy Hc Hd.
  pose proof Hx as (_ & Sx & _). pose proof Hy as (_ & Sy & _).
  pose proof (len_nonneg c). pose proof (len_nonneg e).
  split; [|split].
  - unfold data_equal. destruct (a =? b) eqn:E.
    + exists true. split; auto. split; auto. intros _. cbn in Hc. assert (x = y) by (apply Hc; lia). subst y.
      assert (len c = len e) as L by lia.
      destruct (holds_bytes _ _ Hx) as [(r & B)|(B & ->)]; destruct (holds_bytes _ _ Hy) as [(r' & B')|(B' & ->)]; try congruence.
      rewrite B in B'. injection B' as K. assert (firstn (Z.to_nat (len c)) (c ++ r) = firstn (Z.to_nat (len e)) (e ++ r')) as F by (rewrite K, L; auto).
      rewrite !firstn_len_app in F by auto. auto.
    + rewrite Sx, Sy. destruct (len c =? len e) eqn:L.
      * destruct (cmp_at d x c y e 0 Hx Hy Hd ltac:(lia) ltac:(lia)) as (k & E1 & E2).
        rewrite advance_0 in E1. replace (len c) with (len e) by lia. rewrite E1. cbn [bind].
        eexists. split; [reflexivity|]. apply eqb_iff. rewrite E2. cbn [Z.to_nat skipn]. apply firstn_all_iff. lia.
      * exists false. split; auto. split; [discriminate|]. intros ->. lia.
  - unfold data_has_prefix. rewrite Sx, Sy. destruct (len e <=? len c) eqn:L.
    + destruct (cmp_at d x c y e 0 Hx Hy Hd ltac:(lia) ltac:(lia)) as (k & E1 & E2). rewrite advance_0 in E1. rewrite E1. cbn [bind].
      eexists. split; [reflexivity|]. apply eqb_iff. rewrite E2. cbn [Z.to_nat skipn].
      rewrite <- (prefix_iff e c (len e)) by lia. unfold len. rewrite Nat2Z.id. tauto.
    + exists false. split; auto. split; [discriminate|]. intros K. apply prefix_len in K. lia.
  - unfold data_has_suffix. rewrite Sx, Sy. destruct (len e <=? len c) eqn:L.
    + destruct (cmp_at d x c y e (len c - len e) Hx Hy Hd ltac:(lia) ltac:(lia)) as (k & E1 & E2). rewrite E1. cbn [bind].
      eexists. split; [reflexivity|]. apply eqb_iff. rewrite E2. rewrite <- (suffix_iff e c) by lia.
      rewrite firstn_all2 by (rewrite skipn_length; unfold len in *; lia). tauto.
    + exists false. split; auto. split; [discriminate|]. intros K. apply suffix_len in K. lia.
Qed.
Print Assumptions C31_data_compare_partial.

(* the same for GBytes: these do not need the exception *)
Theorem C31_bytes_compare : forall d a x c p e b y,
  holds x c -> points_to p e -> holds y e ->
  decides (bytes_equal d (Some (a, x)) p (len e)) (c = e) /\
  decides (bytes_equal_data d (Some (a, x)) (Some (b, y))) (c = e) /\
  decides (bytes_has_prefix d (Some (a, x)) p (len e)) (prefix_of e c) /\
  decides (bytes_has_suffix d (Some (a, x)) p (len e)) (suffix_of e c).
Proof.
  intros d a x c p e b y Hx Hp Hy. pose proof Hx as (_ & Sx & _). pose proof Hy as (_ & Sy & _).
  pose proof (len_nonneg c). pose proof (len_nonneg e).
  assert (len c = 0 -> c = []) as Zc by (destruct c; [auto|rewrite len_cons; pose proof (len_nonneg c); lia]).
  assert (len e = 0 -> e = []) as Ze by (destruct e; [auto|rewrite len_cons; pose proof (len_nonneg e); lia]).
  assert (0 < len c -> exists r, bytes x = Some (c ++ r)) as Px by (intros; apply (holds_pos x c Hx); lia).
  assert (0 < len e -> exists r, bytes y = Some (e ++ r)) as Py by (intros; apply (holds_pos y e Hy); lia).
  split; [|split; [|split]].
  - unfold bytes_equal. destruct Hp as (r & ->). rewrite Sx. destruct (len c =? len e) eqn:L.
    + destruct (len c =? 0) eqn:Z0.
      * exists true. split; auto. split; auto. intros _. rewrite Zc, Ze by lia. reflexivity.
      * destruct (memcmp_at d (bytes x) c e (Some (e ++ r)) 0) as (k & E1 & E2); [apply Px; lia|eauto|lia|lia|].
        rewrite advance_0 in E1. rewrite E1. cbn [bind]. eexists. split; [reflexivity|]. apply eqb_iff. rewrite E2. apply firstn_all_iff. lia.
    + exists false. split; auto. split; [discriminate|]. intros ->. lia.
  - unfold bytes_equal_data. rewrite Sx, Sy. destruct (len c =? len e) eqn:L.
    + destruct (len c =? 0) eqn:Z0.
      * exists true. split; auto. split; auto. intros _. rewrite Zc, Ze by lia. reflexivity.
      * destruct (memcmp_at d (bytes x) c e (bytes y) 0) as (k & E1 & E2); [apply Px; lia|apply Py; lia|lia|lia|].
        rewrite advance_0 in E1. rewrite E1. cbn [bind]. eexists. split; [reflexivity|]. apply eqb_iff. rewrite E2. apply firstn_all_iff. lia.
    + exists false. split; auto. split; [discriminate|]. intros ->. lia.
  - unfold bytes_has_prefix. rewrite Sx. destruct (len e =? 0) eqn:Z0.
    + exists true. split; auto. split; auto. intros _. rewrite Ze by lia. exists c. reflexivity.
    + destruct (len c >=? len e) eqn:L.
      * destruct (memcmp_at d (bytes x) c e p 0) as (k & E1 & E2); [apply Px; lia|exact Hp|lia|lia|].
        rewrite advance_0 in E1. rewrite E1. cbn [bind]. eexists. split; [reflexivity|]. apply eqb_iff. rewrite E2. cbn [Z.to_nat skipn].
        rewrite <- (prefix_iff e c (len e)) by lia. unfold len. rewrite Nat2Z.id. tauto.
      * exists false. split; auto. split; [discriminate|]. intros K. apply prefix_len in K. lia.
  - unfold bytes_has_suffix. rewrite Sx. destruct (len e =? 0) eqn:Z0.
    + exists true. split; auto. split; auto. intros _. rewrite Ze by lia. exists c. rewrite app_nil_r. reflexivity.
    + destruct (len c >=? len e) eqn:L.
      * destruct (memcmp_at d (bytes x) c e p (len c - len e)) as (k & E1 & E2); [apply Px; lia|exact Hp|lia|lia|].
        rewrite E1. cbn [bind]. eexists. split; [reflexivity|]. apply eqb_iff. rewrite E2. rewrite <- (suffix_iff e c) by lia.
        rewrite firstn_all2 by (rewrite skipn_length; unfold len in *; lia). tauto.
      * exists false. split; auto. split; [discriminate|]. intros K. apply suffix_len in K. lia.
Qed.
Print Assumptions C31_bytes_compare.

(* NULL is equal to NULL, starts and ends with NULL and nothing else; a NULL GBytes has no prefix *)
Theorem C31_null : forall d p v n,
  let null_only r := r = Ok (match p with None => true | Some _ => false end) in
  null_only (data_equal d None p) /\ null_only (data_equal d p None) /\
  null_only (data_has_prefix d None p) /\ null_only (data_has_prefix d p None) /\
  null_only (data_has_suffix d None p) /\ null_only (data_has_suffix d p None) /\
  null_only (bytes_equal_data d None p) /\ null_only (bytes_equal_data d p None) /\
  null_only (bytes_equal d p None n) /\ bytes_equal d None v n = Ok (match v with None => true | Some _ => false end) /\
  bytes_has_prefix d None v n = Ok false /\ bytes_has_suffix d None v n = Ok false /\
  (p <> None -> bytes_has_prefix d p None 0 = Ok true /\ bytes_has_suffix d p None 0 = Ok true).
Proof. intros d [(a, x)|] [v|] n; repeat split; try reflexivity; intros; congruence. Qed.
Print Assumptions C31_null.

Example C31_example :
  let p := Some (blk 1 [1;2;3;2;3]) in let s := Some (blk 2 [2;3]) in
  data_has_suffix Strict p s = Ok true /\ data_has_prefix Strict p s = Ok false /\
  data_equal Strict p (Some (blk 3 [1;2;3;2;3])) = Ok true /\ data_equal Strict p s = Ok false /\
  bytes_has_suffix Strict p (Some [2;3;9]) 2 = Ok true /\ bytes_has_prefix Strict p (Some [1;2;9]) 3 = Ok false /\
  bytes_equal Strict (Some (nul 4)) (Some [7]) 0 = Ok true /\
  holds (snd (blk 1 [1;2;3;2;3])) [1;2;3;2;3].
Proof.
  vm_compute. repeat (split; [reflexivity|]). split; [|split; [reflexivity|exists [99]; reflexivity]].
  repeat constructor; discriminate.
Qed.

(* ------------------------------------------------------------------ C32 *)
(* ISO C: an empty GBytes without data passes NULL to memcpy *)
Theorem C32_bytes_concat_refuted : exists p q r,
  bytes_concat Strict (Some p) [q; r] = Fail NullDeref /\ holds (snd p) [1] /\ holds (snd q) [] /\ holds (snd r) [2].
Proof.
  exists (blk 1 [1]), (nul 2), (blk 3 [2]). split; [reflexivity|].
  split; [|split]; (split; [repeat constructor; unfold is_byte; lia|split; [reflexivity|]]); [exists [99]|..|exists [99]]; reflexivity.
Qed.
Print Assumptions C32_bytes_concat_refuted.

(* Missing: the case above. The total size fits a gsize and there are less than 2^32 arguments. *)
Theorem C32_bytes_concat_partial : forall d a x args c cs,
  holds x c -> Forall2 (fun p c => holds (snd p) c) args cs ->
  d = Wrap \/ (no_null x /\ Forall (fun p => no_null (snd p)) args) ->
  len (concat (c :: cs)) < 2^64 -> len args + 1 < 2^32 ->
  exists r, bytes_concat d (Some (a, x)) args = Ok r /\
    match r with
    | NewBytes out => out = map Some (concat (c :: cs)) /\ 2 <= len (nonempty (c :: cs))
    | RefBytes b => (exists y e, In (b, y) ((a, x) :: args) /\ holds y e /\ e = concat (c :: cs)) /\ len (nonempty (c :: cs)) <= 1
    | NullBytes => False
    end.
Proof.
  intros d a x args c cs Hx F Hd Ht Hn. pose proof Hx as (_ & Sx & _). cbn [concat] in Ht. rewrite len_app in Ht.
  pose proof (len_nonneg c). pose proof (len_nonneg (concat cs)). pose proof (len_nonneg args).
  assert (forall (l : list (list Z)), nonempty l = [] -> concat l = []) as NE0.
  { intros l. unfold nonempty. induction l as [|z l IH]; cbn; auto. destruct (len z =? 0) eqn:E; cbn; [|discriminate].
    intros K. rewrite IH by auto. destruct z as [|z0 z]; auto. rewrite len_cons in E. pose proof (len_nonneg z). lia. }
  assert (forall (l : list (list Z)), concat l = concat (nonempty l)) as NEC.
  { intros l. unfold nonempty. induction l as [|z l IH]; cbn; auto. destruct (len z =? 0) eqn:E; cbn; rewrite IH; auto.
    destruct z as [|z0 z]; auto. rewrite len_cons in E. pose proof (len_nonneg z). lia. }
  unfold bytes_concat. rewrite Sx. cbn [concat nonempty filter].
  assert (forall n o, 0 <= n <= 1 -> exists o', concat_count args (len c) n o = (len c + len (concat cs), n + len (nonempty cs), o') /\
     (nonempty cs = [] -> o' = o) /\
    (nonempty cs <> [] -> exists pre a x c post, args = pre ++ (a, x) :: post /\ o' = Some a /\ holds x c /\ c <> [] /\
        nonempty cs = nonempty (firstn (length pre) cs) ++ [c])) as CC.
  { intros n o Hn2. apply (concat_count_spec args cs (len c) n o F); lia. }
  assert (In (a, x) ((a, x) :: args)) as Ia by (left; auto).
  assert (forall n o', 2 <= n -> 
    exists r, (if n =? 0 then Ok (RefBytes a) else if n =? 1 then match o' with Some b => Ok (RefBytes b) | None => Fail NullDeref end
      else do buf <- copy_in d (malloc (len c + len (concat cs))) 0 (bytes x) (len c); do buf <- concat_copy d args buf (len c); Ok (NewBytes buf)) = Ok r /\
      r = NewBytes (map Some (c ++ concat cs))) as BIG.
  { intros n o' Hn2. replace (n =? 0) with false by lia. replace (n =? 1) with false by lia.
    assert (forall q, malloc q = map Some (@nil Z) ++ malloc q) as M by reflexivity. rewrite M.
    rewrite (copy_in_spec d [] (malloc (len c + len (concat cs))) (bytes x) c); auto.
    - cbn [bind app]. rewrite (concat_copy_spec d args cs); auto.
      + cbn [bind]. eexists. split; [reflexivity|]. rewrite skipn_skipn', skipn_all2; [rewrite app_nil_r; reflexivity|].
        unfold malloc. rewrite repeat_length. unfold len in *. lia.
      + clear - F Hd. destruct Hd as [->|(_ & Hd)]; [induction F; constructor; auto|].
        revert Hd. induction F; constructor; inversion Hd; subst; auto.
      + unfold malloc. rewrite len_skipn; rewrite len_repeat; unfold len in *; lia.
    - unfold malloc. rewrite len_repeat. lia.
    - destruct (holds_bytes _ _ Hx) as [?|(B & ->)]; auto. destruct Hd as [->|(N & _)]; [auto|contradiction]. }
  destruct (len c =? 0) eqn:E; cbn [negb].
  - assert (c = []) by (destruct c; [auto|rewrite len_cons in E; pose proof (len_nonneg c); lia]). subst c. cbn [app].
    destruct (CC 0 None ltac:(lia)) as (o' & -> & C1 & C2). fold (@nonempty Z cs) in *.
    destruct (nonempty cs) as [|c1 l1] eqn:EN.
    + change (0 + len (@nil (list Z)) =? 0) with true. cbv iota. eexists. split; [reflexivity|]. cbv beta iota. split; [|change (len (@nil (list Z))) with 0; lia].
      exists x, []. split; auto. split; auto. symmetry. apply NE0. auto.
    + destruct C2 as (pre & b & y & e & post & Ea & -> & Hy & He & Hn'); [discriminate|].
      destruct l1 as [|c2 l1].
      * change (0 + len [c1] =? 0) with false. change (0 + len [c1] =? 1) with true. cbv iota. eexists. split; [reflexivity|]. cbv beta iota.
        split; [|change (len [c1]) with 1; lia]. exists y, e. split; [right; rewrite Ea; apply in_or_app; right; left; auto|]. split; auto.
        rewrite NEC, EN. cbn. rewrite app_nil_r.
        destruct (nonempty (firstn (length pre) cs)) as [|q l']; [injection Hn' as ->; auto|]. exfalso. apply (f_equal (@length (list Z))) in Hn'. rewrite app_length in Hn'. cbn [length] in Hn'. lia.
      * destruct (BIG (0 + len (c1 :: c2 :: l1)) (Some b)) as (r & E1 & E2).
        { rewrite !len_cons. pose proof (len_nonneg l1). lia. }
        exists r. split; [exact E1|]. subst r. cbv beta iota. split; auto. rewrite !len_cons. pose proof (len_nonneg l1). lia.
  - destruct (CC 1 (Some a) ltac:(lia)) as (o' & -> & C1 & C2). fold (@nonempty Z cs) in *.
    destruct (nonempty cs) as [|c1 l1] eqn:EN.
    + rewrite C1 by auto. change (1 + len (@nil (list Z)) =? 0) with false. change (1 + len (@nil (list Z)) =? 1) with true. cbv iota.
      eexists. split; [reflexivity|]. cbv beta iota. split; [|change (len [c]) with 1; lia].
      exists x, c. split; auto. split; auto. rewrite (NE0 cs) by auto. rewrite app_nil_r. auto.
    + destruct (BIG (1 + len (c1 :: l1)) o') as (r & E1 & E2).
      { rewrite len_cons. pose proof (len_nonneg l1). lia. }
      exists r. split; [exact E1|]. subst r. cbv beta iota. split; auto. rewrite !len_cons. pose proof (len_nonneg l1). lia.
Qed.
Print Assumptions C32_bytes_concat_partial.

Example C32_example :
  bytes_concat Strict (Some (blk 1 [1;2])) [blk 2 [3]; blk 3 []; blk 2 [3]] = Ok (NewBytes (map Some [1;2;3;3])) /\
  bytes_concat Strict (Some (nul 1)) [nul 2; blk 3 [3]; nul 4] = Ok (RefBytes 3) /\
  bytes_concat Strict (Some (nul 1)) [nul 2] = Ok (RefBytes 1) /\ bytes_concat Strict None [] = Ok NullBytes.
Proof. vm_compute. auto. Qed.

(* ------------------------------------------------------------------ C33 *)
(* ISO C: the data of a GBytes need not be aligned for a long *)
Theorem C33_bytes_xor_refuted : exists mc a1 a2 x y,
  holds x (repeat 1 8) /\ holds y (repeat 2 8) /\
  bytes_xor Strict mc a1 a2 (Some (1, x)) (Some (2, y)) = Fail Misaligned.
Proof.
  exists (mkMachine 8 false), 1001, 2000, (snd (blk 1 (repeat 1 8))), (snd (blk 2 (repeat 2 8))).
  split; [|split; [|reflexivity]]; (split; [repeat constructor; unfold is_byte; lia|split; [reflexivity|exists [99]; reflexivity]]).
Qed.
Print Assumptions C33_bytes_xor_refuted.

(* Missing: unaligned data on machines which care. Any word size and byte order. *)
Theorem C33_bytes_xor_partial : forall d mc a1 a2 a b x y c e,
  0 < word_size mc -> holds x c -> holds y e ->
  d = Wrap \/ (a1 mod word_size mc = 0 /\ a2 mod word_size mc = 0) ->
  c <> [] -> e <> [] ->
  bytes_xor d mc a1 a2 (Some (a, x)) (Some (b, y)) = Ok (NewBytes (map Some (xor_spec c e))).
Proof.
  intros d mc a1 a2 a b x y c e W Hx Hy A Hc He. pose proof Hx as (FX & Sx & _). pose proof Hy as (FY & Sy & _).
  assert (0 < len c) by (destruct c; [congruence|rewrite len_cons; pose proof (len_nonneg c); lia]).
  assert (0 < len e) by (destruct e; [congruence|rewrite len_cons; pose proof (len_nonneg e); lia]).
  destruct (holds_pos x c Hx ltac:(lia)) as (rx & Bx). destruct (holds_pos y e Hy ltac:(lia)) as (ry & By).
  unfold bytes_xor. rewrite Sx, Sy, Bx, By. cbn [block]. set (n := Z.min (len c) (len e)) in *.
  replace (n =? 0) with false by lia.
  (* only the first n bytes of each block are read *)
  assert (forall l1 l2, Forall is_byte l1 -> Forall is_byte l2 -> n <= len l1 -> n <= len l2 ->
    (do (i, out) <- xor_words (Z.to_nat n) d mc a1 l1 a2 l2 n 0 (malloc n);
     do out <- xor_bytes (Z.to_nat n) l1 l2 n i out; Ok (NewBytes out)) = Ok (NewBytes (map Some (xor_spec (slice l1 0 n) (slice l2 0 n))))) as G.
  { intros l1 l2 F1 F2 L1 L2. change (malloc n) with (map Some (@nil Z) ++ malloc n).
    destruct (xor_words_spec d mc a1 l1 a2 l2 n W F1 F2 L1 L2 A (Z.to_nat n) 0 [] (malloc n)) as (j & Hj & Ej); try (unfold malloc; rewrite len_repeat); try lia; auto.
    rewrite Ej. cbn [bind app].
    rewrite xor_bytes_spec; auto; try lia.
    - cbn [bind]. rewrite (slice_split l1 0 j n), (slice_split l2 0 j n) by lia. rewrite xor_spec_app; auto.
      apply len_eq_length. rewrite !slice_len; lia.
    - pose proof (slice_len l1 0 j ltac:(lia) ltac:(lia)) as S1. pose proof (slice_len l2 0 j ltac:(lia) ltac:(lia)) as S2.
      unfold len in S1, S2 |- *. rewrite xor_spec_len. lia.
    - unfold malloc. rewrite len_skipn; rewrite len_repeat; lia. }
  assert (forall l1 l2 m1 m2 i out f, n <= len l1 -> n <= len l2 -> 0 <= i ->
     xor_bytes f (l1 ++ m1) (l2 ++ m2) n i out = xor_bytes f l1 l2 n i out) as XB.
  { intros l1 l2 m1 m2 i out f L1 L2. revert i out. induction f; intros i out Hi; cbn [xor_bytes]; auto.
    destruct (i <? n) eqn:Q; auto.
    assert (forall l m : list Z, n <= len l -> rd (l ++ m) i = rd l i) as R.
    { intros l m L. unfold rd. rewrite len_app. pose proof (len_nonneg m). replace ((0 <=? i) && (i <? len l + len m)) with true by lia.
      replace ((0 <=? i) && (i <? len l)) with true by lia. rewrite nth_error_app1 by (unfold len in *; lia). reflexivity. }
    rewrite !R by auto. destruct (rd l1 i); cbn [bind]; auto. destruct (rd l2 i); cbn [bind]; auto. destruct (wr _ _ _); cbn [bind]; auto. apply IHf. lia. }
  assert (forall ad l m i, n <= len l -> 0 <= i -> i + word_size mc <= n -> load d mc ad (l ++ m) i = load d mc ad l i) as LD.
  { intros ad l m i L Hi Hw. unfold load. rewrite len_app. pose proof (len_nonneg m).
    replace ((0 <=? i) && (i + word_size mc <=? len l + len m)) with true by lia. replace ((0 <=? i) && (i + word_size mc <=? len l)) with true by lia.
    assert (slice (l ++ m) i (i + word_size mc) = slice l i (i + word_size mc)) as ->; [|reflexivity].
    unfold slice. rewrite skipn_app, firstn_app. 
    replace (Z.to_nat (i + word_size mc - i) - length (skipn (Z.to_nat i) l))%nat with O by (rewrite skipn_length; unfold len in *; lia).
    cbn [firstn]. apply app_nil_r. }
  assert (forall l1 l2 m1 m2 i out f, n <= len l1 -> n <= len l2 -> 0 <= i ->
     xor_words f d mc a1 (l1 ++ m1) a2 (l2 ++ m2) n i out = xor_words f d mc a1 l1 a2 l2 n i out) as XW.
  { intros l1 l2 m1 m2 i out f L1 L2. revert i out. induction f; intros i out Hi; cbn [xor_words]; auto.
    destruct (i + word_size mc <=? n) eqn:Q; auto. rewrite !LD by (auto; lia).
    destruct (load d mc a1 l1 i); cbn [bind]; auto. destruct (load d mc a2 l2 i); cbn [bind]; auto.
    destruct (save _ _ _ _); cbn [bind]; auto. apply IHf. lia. }
  rewrite XW by lia.
  rewrite <- (xor_spec_prefix c e n) by (unfold n; lia).
  specialize (G c e FX FY ltac:(lia) ltac:(lia)). rewrite !HexProofs.slice_0 in G. rewrite <- G.
  destruct (xor_words (Z.to_nat n) d mc a1 c a2 e n 0 (malloc n)) as [(i, out)|f] eqn:EW; cbn [bind]; auto.
  assert (0 <= i) as Hi.
  { revert EW. generalize (Z.to_nat n) as f. intros f. assert (0 <= 0) as Z0 by lia. revert Z0. generalize 0 at 2 3 as k. generalize (malloc n) as o. 
    induction f; intros o k Hk; cbn [xor_words]; destruct (k + word_size mc <=? n); intros Q; try discriminate; try (injection Q as <- _; auto).
    destruct (load d mc a1 c k); cbn [bind] in Q; [|discriminate]. destruct (load d mc a2 e k); cbn [bind] in Q; [|discriminate].
    destruct (save mc o k _); cbn [bind] in Q; [|discriminate]. eapply IHf; [|exact Q]. lia. }
  rewrite XB by lia. reflexivity.
Qed.
Print Assumptions C33_bytes_xor_partial.

(* if one is empty, the result is the (first) empty one; NULL gives NULL *)
Theorem C33_bytes_xor_empty : forall d mc a1 a2 a b x y c e p,
  holds x c -> holds y e ->
  (c = [] -> bytes_xor d mc a1 a2 (Some (a, x)) (Some (b, y)) = Ok (RefBytes a)) /\
  (c <> [] -> e = [] -> bytes_xor d mc a1 a2 (Some (a, x)) (Some (b, y)) = Ok (RefBytes b)) /\
  bytes_xor d mc a1 a2 None p = Ok NullBytes /\ bytes_xor d mc a1 a2 p None = Ok NullBytes.
Proof.
  intros d mc a1 a2 a b x y c e p (_ & Sx & _) (_ & Sy & _). unfold bytes_xor. rewrite Sx, Sy.
  pose proof (len_nonneg c). pose proof (len_nonneg e). split; [|split; [|split]].
  - intros ->. change (len (@nil Z)) with 0. replace (Z.min 0 (len e) =? 0) with true by lia. reflexivity.
  - intros Hc ->. change (len (@nil Z)) with 0. replace (Z.min (len c) 0 =? 0) with true by lia.
    destruct c; [congruence|]. rewrite len_cons in *. pose proof (len_nonneg c). replace (1 + len c =? 0) with false by lia. reflexivity.
  - reflexivity.
  - destruct p as [(? & ?)|]; reflexivity.
Qed.
Print Assumptions C33_bytes_xor_empty.

Example C33_example :
  bytes_xor Strict (mkMachine 8 true) 1600 2400 (Some (blk 1 [1;2;3;4;5;6;7;8;9;10])) (Some (blk 2 [255;255;0;0;255;3;3;3;3;3;3])) =
    Ok (NewBytes (map Some [254;253;3;4;250;5;4;11;10;9])) /\
  bytes_xor Wrap (mkMachine 4 false) 1601 2403 (Some (blk 1 [1;2;3;4;5;6;7;8;9;10])) (Some (blk 2 [255;255;0;0;255])) =
    Ok (NewBytes (map Some [254;253;3;4;250])).
Proof. vm_compute. auto. Qed.

(* ------------------------------------------------------------------ C34 *)
(* ISO C: an empty prefix with a NULL pointer is passed to memcmp *)
Theorem C34_range_prefix_refuted : exists mem r p,
  holds p [] /\ range_has_prefix Strict mem (Some r) (Some p) = Fail NullDeref.
Proof. exists [1; 2], (mkRange (Some 0) 2), (mkData None 0). repeat split; constructor. Qed.
Print Assumptions C34_range_prefix_refuted.

(* the bytes of a range: none if its end is not behind its start *)
Definition in_range (mem : list Z) (s e : Z) : list Z := if s <? e then slice mem s e else [].

(* Missing: the case above. *)
Theorem C34_range_prefix_partial : forall d mem s e p c,
  holds p c -> d = Wrap \/ no_null p -> 0 <= s -> e <= len mem ->
  decides (range_has_prefix d mem (Some (mkRange (Some s) e)) (Some p)) (prefix_of c (in_range mem s e)) /\
  exists b : bool, range_skip_prefix d mem (Some (mkRange (Some s) e)) (Some p) =
      Ok (b, Some (mkRange (Some (if b then s + len c else s)) e)) /\ (b = true <-> prefix_of c (in_range mem s e)).
Proof.
  intros d mem s e p c Hp Hd Hs He. pose proof Hp as (_ & Sp & _). pose proof (len_nonneg c).
  assert (decides (range_has_prefix d mem (Some (mkRange (Some s) e)) (Some p)) (prefix_of c (in_range mem s e))) as D.
  { unfold range_has_prefix, in_range. cbn [r_ptr r_end]. rewrite Sp. replace (e >? s) with (s <? e) by lia. destruct (s <? e) eqn:L.
    - pose proof (slice_len mem s e ltac:(lia) He) as SL.
      destruct (e - s >=? len c) eqn:G.
      + assert (exists k, memcmp d (Some (skipn (Z.to_nat s) mem)) (bytes p) (len c) = Ok k /\ (k = 0 <-> firstn (length c) (slice mem s e) = c)) as (k & E1 & E2).
        { destruct (holds_bytes _ _ Hp) as [(r & B)|(B & ->)].
          - rewrite B. destruct (memcmp_spec d (Some (skipn (Z.to_nat s) mem)) (Some (c ++ r)) (len c) _ _ eq_refl eq_refl) as (k & E1 & E2).
            + rewrite len_skipn by lia. lia.
            + rewrite len_app. pose proof (len_nonneg r). lia.
            + exists k. split; auto. rewrite E2, firstn_len_app by auto. unfold slice. rewrite firstn_firstn, Nat.min_l by (unfold len in *; lia).
              unfold len. rewrite Nat2Z.id. tauto.
          - destruct Hd as [->|N]; [|contradiction]. exists 0. rewrite B. split; [reflexivity|]. cbn. tauto. }
        rewrite E1. cbn [bind]. eexists. split; [reflexivity|]. apply eqb_iff. rewrite E2.
        rewrite <- (prefix_iff c (slice mem s e) (len c)) by lia. unfold len. rewrite Nat2Z.id. tauto.
      + exists false. split; auto. split; [discriminate|]. intros K. apply prefix_len in K. lia.
    - eexists. split; [reflexivity|]. rewrite Z.eqb_eq. split.
      + intros Z0. destruct c; [exists []; auto|]. rewrite len_cons in Z0. pose proof (len_nonneg c). lia.
      + intros K. apply prefix_len in K. change (len (@nil Z)) with 0 in K. lia. }
  split; auto. destruct D as (b & E & I). exists b. split; auto.
  unfold range_skip_prefix. rewrite E. cbn [bind r_ptr r_end]. destruct b; auto. rewrite Sp. reflexivity.
Qed.
Print Assumptions C34_range_prefix_partial.

Theorem C34_range_prefix_null : forall d mem r p e,
  range_has_prefix d mem None p = Ok false /\ range_has_prefix d mem r None = Ok false /\
  range_has_prefix d mem (Some (mkRange None e)) p = Ok false /\
  range_skip_prefix d mem r None = Ok (false, r).
Proof. intros d mem [r|] [p|] e; repeat split. Qed.
Print Assumptions C34_range_prefix_null.

Example C34_example :
  let mem := [9; 1; 2; 3; 4] in let p := mkData (Some [1;2;7]) 2 in
  range_skip_prefix Strict mem (Some (mkRange (Some 1) 4)) (Some p) = Ok (true, Some (mkRange (Some 3) 4)) /\
  range_skip_prefix Strict mem (Some (mkRange (Some 1) 2)) (Some p) = Ok (false, Some (mkRange (Some 1) 2)) /\
  range_skip_prefix Strict mem (Some (mkRange (Some 3) 2)) (Some p) = Ok (false, Some (mkRange (Some 3) 2)).
Proof. vm_compute. auto. Qed.

(* ------------------------------------------------------------------ C35 *)
(* Copying a block of 4 GB yields an empty block *)
Theorem C35_data_copy_refuted : exists a x c,
  holds x c /\ len c = 2^32 /\ data_copy (Some (a, x)) = Ok (Some (Some [], 0)).
Proof.
  exists 1, (mkData (Some (repeat 7 (Z.to_nat (2^32)))) (2^32)), (repeat 7 (Z.to_nat (2^32))).
  assert (len (repeat 7 (Z.to_nat (2^32))) = 2^32) as L by (rewrite len_repeat; lia).
  split; [|split; [exact L|]].
  - split; [|split; [cbn [size]; lia|exists []; rewrite app_nil_r; reflexivity]].
    apply Forall_forall. intros z Hz. apply repeat_spec in Hz. subst. unfold is_byte. lia.
  - unfold data_copy. cbn [bytes size]. change (u32 (2^32)) with 0. unfold data_new. cbn [copy_in].
    rewrite L. change (0 <=? 2^32) with true. cbv iota. change (malloc (u64 (0 + 16) - 16)) with (@nil (option Z)). cbn [len length].
    reflexivity.
Qed.
Print Assumptions C35_data_copy_refuted.

(* Missing: blocks of 4 GB and more *)
Theorem C35_data_copy_partial : forall a x c,
  holds x c -> no_null x -> len c < 2^32 ->
  data_copy (Some (a, x)) = Ok (Some (Some (map Some c), len c)).
Proof.
  intros a x c Hx N L. pose proof Hx as (_ & Sx & _). destruct (holds_bytes _ _ Hx) as [(r & B)|(B & _)]; [|contradiction].
  pose proof (len_nonneg c). unfold data_copy. rewrite Sx, u32_id by (unfold in_u32; lia). rewrite B. unfold data_new.
  rewrite u64_id by (unfold in_u64; lia). replace (len c + 16 - 16) with (len c) by lia.
  change (malloc (len c)) with (map Some (@nil Z) ++ malloc (len c)).
  rewrite (copy_in_spec Strict [] (malloc (len c)) (Some (c ++ r)) c (len c) 0); eauto.
  - cbn [bind app]. rewrite skipn_all2, app_nil_r; [reflexivity|]. unfold malloc. rewrite repeat_length. unfold len. lia.
  - unfold malloc. rewrite len_repeat. lia.
Qed.
Print Assumptions C35_data_copy_partial.

Theorem C35_data_new : forall p c,
  points_to p c -> len c < 2^32 ->
  data_new p (len c) = Ok (Some (map Some c), len c) /\ data_new None (len c) = Ok (None, 0) /\ data_copy None = Ok None.
Proof.
  intros p c (r & ->) L. pose proof (len_nonneg c). split; [|split; reflexivity]. unfold data_new.
  rewrite u64_id by (unfold in_u64; lia). replace (len c + 16 - 16) with (len c) by lia.
  change (malloc (len c)) with (map Some (@nil Z) ++ malloc (len c)).
  rewrite (copy_in_spec Strict [] (malloc (len c)) (Some (c ++ r)) c (len c) 0); eauto.
  - cbn [bind app]. rewrite skipn_all2, app_nil_r; [reflexivity|]. unfold malloc. rewrite repeat_length. unfold len. lia.
  - unfold malloc. rewrite len_repeat. lia.
Qed.
Print Assumptions C35_data_new.

Example C35_example : data_copy (Some (blk 1 [5;0;6])) = Ok (Some (Some [Some 5; Some 0; Some 6], 3)) /\
  data_new (Some [1;2;3]) 2 = Ok (Some [Some 1; Some 2], 2).
Proof. vm_compute. auto. Qed.

(* ------------------------------------------------------------------ C78 *)
Theorem C78_views : forall s rest a x c n,
  Forall (fun ch => ch <> 0 /\ is_byte ch) s -> holds x c -> 0 <= n <= len c -> no_null x ->
  (exists v, data_from_string (Some (s ++ 0 :: rest)) = Ok v /\ holds v s) /\
  (exists v, data_from_string None = Ok v /\ holds v []) /\
  holds (data_from_bytes (Some (a, x))) c /\ holds (data_from_bytes None) [] /\
  strlen0 (Some (s ++ 0 :: rest)) = Ok (len s) /\ strlen0 None = Ok 0 /\
  memdup (bytes x) n = Ok (if n =? 0 then None else Some (map Some (firstn (Z.to_nat n) c))) /\
  memdup None n = Ok None.
Proof.
  intros s rest a x c n F Hx Hn NN.
  assert (strlen_loop (s ++ 0 :: rest) = Ok (len s)) as SL.
  { apply HexProofs.strlen_spec. eapply Forall_impl; [|exact F]. cbn. tauto. }
  assert (holds (mkData None 0) []) as H0 by (repeat split; constructor).
  split.
  { eexists. unfold data_from_string. rewrite SL. split; [reflexivity|]. split; [eapply Forall_impl; [|exact F]; cbn; tauto|].
    split; [reflexivity|]. exists (0 :: rest). reflexivity. }
  split; [eexists; split; [reflexivity|exact H0]|].
  split; [exact Hx|]. split; [exact H0|]. split; [exact SL|]. split; [reflexivity|]. split; [|reflexivity].
  destruct (holds_bytes _ _ Hx) as [(r & B)|(B & _)]; [|contradiction]. rewrite B. unfold memdup. destruct (n =? 0) eqn:E; auto.
  change (malloc n) with (map Some (@nil Z) ++ malloc n).
  rewrite (copy_in_spec Strict [] (malloc n) (Some (c ++ r)) (firstn (Z.to_nat n) c) n 0); auto.
  - cbn [bind app]. rewrite skipn_all2, app_nil_r; [reflexivity|]. unfold malloc, len in *. rewrite repeat_length, firstn_length. lia.
  - unfold len in *. rewrite firstn_length. lia.
  - unfold malloc. rewrite len_repeat. lia.
  - left. exists (skipn (Z.to_nat n) c ++ r). rewrite app_assoc, firstn_skipn. reflexivity.
Qed.
Print Assumptions C78_views.

Example C78_example : data_from_string (Some [104; 105; 0; 7]) = Ok (mkData (Some [104; 105; 0; 7]) 2) /\
  memdup (Some [104; 105; 0; 7]) 3 = Ok (Some [Some 104; Some 105; Some 0]).
Proof. vm_compute. auto. Qed.
