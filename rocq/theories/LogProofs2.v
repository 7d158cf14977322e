(* Proofs about LogModel.v: formatting *)
From Coq Require Import String Ascii List.
From Verif Require Import Base HexModel HexSpec HexProofs LogModel LogSpec LogProofs.
Import ListNotations.
Open Scope Z_scope.

Lemma cstr_text t r : no_nul t -> cstr (map Some (t ++ [0]) ++ r) = Ok t.
Proof.
  induction 1 as [|c t Hc Ht IH]; [reflexivity|]. cbn [app map cstr]. destruct (Z.eqb_spec c 0); [contradiction|]. rewrite IH. reflexivity.
Qed.

Lemma malloc_length n : 0 <= n -> len (malloc n) = n.
Proof. intros. unfold malloc, len. rewrite repeat_length. lia. Qed.

Lemma vsnprintf_fits b size t : len t <= INT_MAX -> size <= len b -> len t < size ->
  vsnprintf b size (FText t) = Ok (len t, map Some (t ++ [0]) ++ skipn (length (t ++ [0])) b).
Proof.
  intros H1 H2 H3. unfold vsnprintf. destruct (Z.gtb_spec size (len b)); [lia|]. destruct (Z.leb_spec (len t) INT_MAX); [|lia]. pose proof (len_nonneg t). destruct (Z.gtb_spec size 0); [|lia].
  rewrite firstn_all2 by (unfold len in *; lia). reflexivity.
Qed.
Lemma vsnprintf_long b size t : len t <= INT_MAX -> size <= len b -> exists b', vsnprintf b size (FText t) = Ok (len t, b') /\ len b' = len b.
Proof.
  intros H1 H2. unfold vsnprintf. destruct (Z.gtb_spec size (len b)); [lia|]. destruct (Z.leb_spec (len t) INT_MAX); [|lia]. destruct (Z.gtb_spec size 0); [|eauto].
  eexists. split; [reflexivity|]. unfold len in *. rewrite app_length, map_length, skipn_length, app_length, firstn_length. cbn [length]. lia.
Qed.

Lemma arith32_small d z : -2^31 <= z < 2^31 -> arith32 d z = Ok z.
Proof. intros H. destruct d; cbn [arith32]; [|rewrite s32_id; [auto|exact H]]. destruct (Z.leb_spec (-2^31) z), (Z.ltb_spec z (2^31)); cbn; auto; lia. Qed.

Lemma format_text d h buf t : len t < INT_MAX ->
  exists h' buf' b r, (forall fuel, (2 <= fuel)%nat -> format fuel d h buf (FText t) = Ok (h', buf', Some b)) /\ block h' buf' b = Some (map Some (t ++ [0]) ++ r) /\
    ((b = BCaller /\ h' = h /\ len t < len buf) \/ (b = BHeap (length h) /\ len buf <= len t /\ exists x, h' = h ++ [Some x])).
Proof.
  intros Ht. pose proof (len_nonneg t). destruct (Z.lt_ge_cases (len t) (len buf)) as [L|L].
  - exists h, (map Some (t ++ [0]) ++ skipn (length (t ++ [0])) buf), BCaller, (skipn (length (t ++ [0])) buf). split; [|split; [reflexivity|left; auto]].
    intros fuel Hf. destruct fuel as [|[|fuel]]; try lia. unfold format. cbn [format_loop bind].
    rewrite vsnprintf_fits by lia. cbn [bind]. destruct (Z.geb_spec (len t) 0); [|lia]. destruct (Z.ltb_spec (len t) (len buf)); [|lia]. reflexivity.
  - destruct (vsnprintf_long buf (len buf) t) as (b' & E & Lb); [lia|lia|].
    exists (h ++ [Some (map Some (t ++ [0]) ++ skipn (length (t ++ [0])) (malloc (len t + 1)))]), b', (BHeap (length h)), (skipn (length (t ++ [0])) (malloc (len t + 1))).
    split; [|split; [cbn [block]; rewrite nth_error_app2, Nat.sub_diag by lia; reflexivity|right; split; auto; split; [lia|eauto]]].
    intros fuel Hf. destruct fuel as [|[|fuel]]; try lia. unfold format. cbn [format_loop bind]. rewrite E. cbn [bind]. destruct (Z.geb_spec (len t) 0); [|lia]. destruct (Z.ltb_spec (len t) (len buf)); [lia|]. cbn [andb].
    rewrite arith32_small by (unfold INT_MAX in Ht; lia). cbn [bind]. unfold g_malloc. destruct (Z.eqb_spec (len t + 1) 0); [lia|]. destruct (Z.ltb_spec (len t + 1) 0); [lia|]. cbn [bind].
    rewrite nth_error_app2, Nat.sub_diag by lia. cbn [nth_error bind].
    rewrite vsnprintf_fits by (rewrite ?malloc_length; lia). cbn [bind]. destruct (Z.geb_spec (len t) 0); [|lia]. destruct (Z.ltb_spec (len t) (len t + 1)); [|lia]. cbn [andb].
    rewrite upd_app_r, Nat.sub_diag by lia. reflexivity.
Qed.

(* the use of the text by the callers: read, then released *)
Lemma format_use d h t : no_nul t -> len t < INT_MAX ->
  exists h' buf' b h'', (forall fuel, (2 <= fuel)%nat -> format fuel d h (malloc 512) (FText t) = Ok (h', buf', b)) /\ text_of h' buf' b = Ok t /\ release h' b = Ok h'' /\ no_leak h h''.
Proof.
  intros Nt Ht. destruct (format_text d h (malloc 512) t Ht) as (h' & buf' & b & r & E & Bl & D). destruct D as [(-> & -> & _)|(-> & _ & x & ->)].
  - exists h, buf', (Some BCaller), h. split; [exact E|]. cbn [block] in Bl. injection Bl as ->. split; [apply cstr_text; auto|]. split; [reflexivity|]. exists 0%nat. cbn. rewrite app_nil_r. auto.
  - exists (h ++ [Some x]), buf', (Some (BHeap (length h))), (h ++ [None]). split; [exact E|]. cbn [block text_of release] in *. assert (N : nth_error (h ++ [Some x]) (length h) = Some (Some x)) by (rewrite nth_error_app2, Nat.sub_diag by lia; reflexivity). unfold g_free. rewrite N in *. injection Bl as ->.
    split; [apply cstr_text; auto|]. split; [rewrite upd_app_r, Nat.sub_diag by lia; reflexivity|]. exists 1%nat. reflexivity.
Qed.

(* a text that vsnprintf cannot count, or an error: the size is doubled until it overflows *)
Definition hopeless (f : fmt) : Prop := match f with FText t => INT_MAX < len t | FError => True end.
Lemma vsnprintf_hopeless b size f : hopeless f -> size <= len b -> exists b', vsnprintf b size f = Ok (-1, b') /\ len b' = len b.
Proof.
  intros Hf Hs. unfold vsnprintf. destruct (Z.gtb_spec size (len b)); [lia|]. exists (map (fun _ => None) b). assert (L : len (map (fun _ : option Z => @None Z) b) = len b) by (unfold len; rewrite map_length; auto).
  destruct f as [t|]; [|auto]. cbn [hopeless] in Hf. destruct (Z.leb_spec (len t) INT_MAX); [lia|]. auto.
Qed.
Definition overflow (d : dialect) : fault := match d with Strict => SignedOverflow | Wrap => AllocAbort end.
Lemma format_hopeless d f : hopeless f -> forall fuel j h buf b x, block h buf b = Some x -> 2 ^ (30 - Z.of_nat j) <= len x -> (j <= 30)%nat ->
  format_loop fuel d f h buf b (2 ^ (30 - Z.of_nat j)) = Fail (if (fuel <=? j)%nat then NoFuel else overflow d).
Proof.
  intros Hp. induction fuel as [|fuel IH]; intros j h buf b x Bl Lx Hj; [reflexivity|]. cbn [format_loop].
  assert (Rb : match b with BCaller => Ok buf | BHeap a => match nth_error h a with Some (Some x) => Ok x | _ => Fail UseAfterFree end end = Ok x).
  { destruct b as [|a]; cbn in Bl; [congruence|]. destruct (nth_error h a) as [[y|]|]; congruence. }
  rewrite Rb. cbn [bind]. destruct (vsnprintf_hopeless x _ f Hp Lx) as (x' & E & Lx'). rewrite E. cbn [bind]. cbn [Z.geb Z.compare andb].
  set (h1 := match b with BCaller => h | BHeap a => upd h a (Some x') end).
  assert (Fr : exists h2, match b with BCaller => Ok h1 | BHeap a => g_free h1 a end = Ok h2).
  { destruct b as [|a]; [eauto|]. unfold g_free, h1. cbn in Bl. destruct (nth_error h a) as [[y|]|] eqn:En; try discriminate. rewrite nth_error_upd_eq by (apply nth_error_Some; congruence). eauto. }
  destruct Fr as (h2 & Fr). destruct j as [|j].
  - change (2 ^ (30 - Z.of_nat 0) * 2) with (2 ^ 31). destruct d; cbn [arith32].
    + cbn. reflexivity.
    + change (s32 (2 ^ 31)) with (- 2 ^ 31). cbn [bind]. rewrite Fr. cbn [bind]. reflexivity.
  - replace (2 ^ (30 - Z.of_nat (S j)) * 2) with (2 ^ (30 - Z.of_nat j)) by (replace (30 - Z.of_nat j) with (30 - Z.of_nat (S j) + 1) by lia; rewrite Z.pow_add_r by lia; reflexivity).
    assert (P : 0 < 2 ^ (30 - Z.of_nat j)) by (apply Z.pow_pos_nonneg; lia). assert (P2 : 2 ^ (30 - Z.of_nat j) <= 2 ^ 30) by (apply Z.pow_le_mono_r; lia).
    rewrite arith32_small by lia. cbn [bind]. rewrite Fr. cbn [bind]. unfold g_malloc. destruct (Z.eqb_spec (2 ^ (30 - Z.of_nat j)) 0); [lia|]. destruct (Z.ltb_spec (2 ^ (30 - Z.of_nat j)) 0); [lia|]. cbn [bind].
    rewrite (IH j _ _ _ (malloc (2 ^ (30 - Z.of_nat j)))); [reflexivity| |rewrite malloc_length; lia|lia].
    cbn [block]. rewrite nth_error_app2, Nat.sub_diag by lia. reflexivity.
Qed.
Lemma format_max d h buf t fuel : len t = INT_MAX -> len buf <= INT_MAX -> (1 <= fuel)%nat -> format fuel d h buf (FText t) = Fail (overflow d).
Proof.
  intros Ht Hb Hf. destruct fuel as [|fuel]; [lia|]. unfold format. cbn [format_loop bind]. destruct (vsnprintf_long buf (len buf) t) as (b' & E & Lb); [lia|lia|]. rewrite E, Ht. cbn [bind].
  replace (INT_MAX >=? 0) with true by reflexivity. destruct (Z.ltb_spec INT_MAX (len buf)); [lia|]. cbn [andb]. change (INT_MAX + 1) with (2 ^ 31). destruct d; reflexivity.
Qed.
