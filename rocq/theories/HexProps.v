(* Properties C26-C28: hexadecimal conversions and dumps *)
From Verif Require Import Base HexModel HexSpec HexProofs.
From Coq Require Import ZifyBool.
Ltac Zify.zify_post_hook ::= Z.div_mod_to_equations.

(* what a terminated string in memory looks like, followed by anything *)
Definition c_string (s rest : list Z) : list Z := s ++ 0 :: rest.

(* ------------------------------------------------------------------ C26 *)
Theorem C26_hex_round_trip : forall bs after upper rest buf,
  bs <> [] -> Forall is_byte (bs ++ after) -> 2 * len bs + 1 < 2^64 -> len bs <= len buf ->
  exists txt,
    bin2hex (bs ++ after) (len bs) upper = Ok (map Some (c_string txt [])) /\
    data2hex (Some (bs ++ after, len bs)) upper = Ok (Some (map Some (c_string txt []))) /\
    len txt = 2 * len bs /\ Forall (in_case upper) txt /\ Forall (fun c => c <> 0) txt /\
    hex2bytes (Some (c_string txt rest)) (-1) = Ok (Some (map Some bs)) /\
    hex2bytes (Some (c_string txt rest)) (len txt) = Ok (Some (map Some bs)) /\
    hex2bin (Some (c_string txt rest)) (len txt) (Some buf) =
      Ok (true, Some (map Some bs ++ skipn (length bs) buf)).
Proof.
  intros bs aft up rest buf Hne HB Hl Hbuf. exists (flat_map (hex2 up) bs). set (txt := flat_map (hex2 up) bs).
  assert (Forall is_byte bs) as HB1 by (apply Forall_app in HB; tauto).
  assert (0 < len bs) by (destruct bs; [congruence|]; rewrite len_cons; pose proof (len_nonneg bs); lia).
  assert (bin2hex (bs ++ aft) (len bs) up = Ok (map Some (c_string txt []))) as E1.
  { rewrite bin2hex_spec; [|auto|rewrite len_app; pose proof (len_nonneg aft); lia|auto].
    rewrite slice_0. unfold len. rewrite Nat2Z.id. rewrite firstn_app, Nat.sub_diag, firstn_all. cbn [firstn]. rewrite app_nil_r. reflexivity. }
  assert (len txt = 2 * len bs) as LT by apply len_flat_hex2.
  assert (Forall (fun c => c <> 0) txt) as NZ by (apply hex2_nz; auto).
  assert (firstn (Z.to_nat (len txt)) (c_string txt rest) = txt) as FT.
  { unfold c_string, len. rewrite Nat2Z.id, firstn_app, Nat.sub_diag, firstn_all. cbn [firstn]. apply app_nil_r. }
  assert (hex_of txt bs) as HO by (apply hex2_hex_of; auto).
  assert (Z.even (len txt) = true) as Ev by (rewrite LT, Z.even_mul; reflexivity).
  assert (forall b, len bs <= len b -> hex2bin (Some (c_string txt rest)) (len txt) (Some b) =
      Ok (true, Some (map Some bs ++ skipn (length bs) b))) as E2.
  { intros b Hb. destruct (hex2bin_spec (c_string txt rest) (len txt) b) as [(bs' & K1 & K2)|(K1 & _)].
    - lia.
    - unfold c_string. rewrite len_app. pose proof (len_nonneg (0 :: rest)). lia.
    - auto.
    - lia.
    - rewrite FT in K1. pose proof (hex_of_fun _ _ _ HO K1). subst bs'. rewrite K2.
      replace (Z.to_nat (len txt / 2)) with (length bs) by (unfold len in *; lia). reflexivity.
    - exfalso. apply (K1 bs). rewrite FT. auto. }
  assert (forall n, (n = -1 \/ n = len txt) -> hex2bytes (Some (c_string txt rest)) n = Ok (Some (map Some bs))) as E3.
  { intros n Hn. unfold hex2bytes.
    match goal with |- bind ?m _ = _ => assert (m = Ok (len txt)) as -> end.
    { destruct Hn as [-> | ->].
      - change (-1 <? 0) with true. apply strlen_spec. auto.
      - replace (len txt <? 0) with false by lia. reflexivity. }
    cbn [bind]. replace (len txt >? 0) with true by lia. rewrite Ev. cbn [andb].
    unfold malloc. rewrite E2 by (rewrite len_repeat; lia). cbn [bind].
    rewrite skipn_all2, app_nil_r; [reflexivity|]. rewrite repeat_length. unfold len in *. lia. }
  split; [exact E1|]. split; [unfold data2hex; rewrite E1; reflexivity|]. split; [exact LT|].
  split.
  { unfold txt. clear - HB1. induction HB1 as [|b l Hb H IH]; [constructor|]. unfold is_byte in Hb. cbn [flat_map hex2 app].
    constructor; [|constructor; [|exact IH]]; unfold in_case, digit; destruct up; match goal with |- context [?x <? 10] => destruct (x <? 10) eqn:? end; lia. }
  split; [exact NZ|]. split; [apply E3; auto|]. split; [apply E3; auto|]. apply E2; auto.
Qed.
Print Assumptions C26_hex_round_trip.

Example C26_example :
  bin2hex [0; 255; 171; 16; 99] 4 true = Ok (map Some [48;48;70;70;65;66;49;48;0]) /\
  hex2bytes (Some [48;48;70;70;65;66;49;48;0;77]) (-1) = Ok (Some (map Some [0; 255; 171; 16])) /\
  (* the empty block is the exception *)
  bin2hex [] 0 true = Ok [Some 0] /\ hex2bytes (Some [0]) (-1) = Ok None.
Proof. vm_compute. auto. Qed.

(* ------------------------------------------------------------------ C27 *)
Theorem C27_hex_decoding : forall str n buf, n <= len str -> n <= 2 * len buf ->
  exists ok buf', hex2bin (Some str) n (Some buf) = Ok (ok, Some buf') /\
    (ok = true <-> 0 < n /\ exists bs, hex_of (firstn (Z.to_nat n) str) bs) /\
    (forall bs, ok = true -> hex_of (firstn (Z.to_nat n) str) bs ->
       buf' = map Some bs ++ skipn (Z.to_nat (n / 2)) buf) /\
    (* a failing call leaves everything behind the first n/2 bytes alone *)
    len buf' = len buf /\ skipn (Z.to_nat (n / 2)) buf' = skipn (Z.to_nat (n / 2)) buf.
Proof.
  intros str n buf Hs Hb.
  destruct ((0 <? n) && Z.even n) eqn:E.
  - apply andb_prop in E. destruct E as (E1 & E2).
    destruct (hex2bin_spec str n buf ltac:(lia) Hs E2 Hb) as [(bs & K1 & K2)|(K1 & bs & K2 & K3)].
    + eexists true, _. split; [exact K2|]. split; [split; [intros _; split; [lia|eauto]|auto]|].
      assert (Z.to_nat (n / 2) = length bs) as L.
      { apply hex_of_len in K1. unfold len in *. rewrite firstn_length in K1. lia. }
      split; [intros bs' _ H'; rewrite (hex_of_fun _ _ _ H' K1); reflexivity|].
      split.
      * rewrite len_app, len_map, len_skipn by lia. rewrite L. unfold len. lia.
      * rewrite L. rewrite skipn_app, skipn_all2, map_length, Nat.sub_diag by (rewrite map_length; lia). reflexivity.
    + eexists false, _. split; [exact K3|]. split; [split; [discriminate|intros (_ & bs' & H'); exfalso; eapply K1; eauto]|].
      split; [discriminate|].
      split.
      * rewrite len_app, len_map, len_skipn by (unfold len in *; lia). unfold len. lia.
      * assert (length bs <= Z.to_nat (n / 2))%nat by (unfold len in *; lia).
        rewrite skipn_app, map_length, skipn_skipn', skipn_all2 by (rewrite map_length; lia). cbn [app]. f_equal. lia.
  - exists false, buf. split.
    { unfold hex2bin. replace (n >? 0) with (0 <? n) by lia. rewrite E. reflexivity. }
    split; [|split; [discriminate|auto]].
    split; [discriminate|]. intros (Hn & bs & H'). exfalso. apply hex_of_len in H'.
    assert (Z.even n = true) as EV; [|rewrite EV, andb_true_r in E; lia].
    unfold len in *. rewrite firstn_length in H'. replace n with (2 * Z.of_nat (length bs)) by lia. rewrite Z.even_mul. reflexivity.
Qed.
Print Assumptions C27_hex_decoding.

Theorem C27_hex2bytes : forall s rest n,
  Forall (fun c => c <> 0) s -> (n < 0 \/ n <= len s) ->
  let str := if n <? 0 then s else firstn (Z.to_nat n) s in
  exists r, hex2bytes (Some (c_string s rest)) n = Ok r /\
    forall bs, r = Some (map Some bs) <-> bs <> [] /\ hex_of str bs.
Proof.
  intros s rest n Hs Hn str. unfold hex2bytes.
  match goal with |- context [bind ?m _] => assert (m = Ok (len str)) as -> end.
  { unfold str. destruct (n <? 0) eqn:E; [apply strlen_spec; auto|]. f_equal. unfold len in *. rewrite firstn_length. lia. }
  cbn [bind].
  assert (firstn (Z.to_nat (len str)) (c_string s rest) = str) as FS.
  { unfold str, c_string, len in *. rewrite Nat2Z.id. destruct (n <? 0) eqn:E.
    - rewrite firstn_app, Nat.sub_diag, firstn_all. cbn [firstn]. apply app_nil_r.
    - rewrite firstn_length, Nat.min_l by lia. rewrite firstn_app. replace (Z.to_nat n - length s)%nat with O by lia. cbn [firstn]. apply app_nil_r. }
  assert (len str <= len (c_string s rest)) as LS.
  { unfold str, c_string. rewrite len_app, len_cons. pose proof (len_nonneg rest). destruct (n <? 0); [lia|]. unfold len. rewrite firstn_length. lia. }
  destruct ((len str >? 0) && Z.even (len str)) eqn:E.
  - apply andb_prop in E. destruct E as (E1 & E2).
    assert (len str = 2 * (len str / 2)) as EV by (rewrite Zeven_mod in E2; apply Zeq_bool_eq in E2; lia).
    destruct (hex2bin_spec (c_string s rest) (len str) (malloc (len str / 2))) as [(bs & K1 & K2)|(K1 & bs & K2 & K3)]; auto; try lia.
    { unfold malloc. rewrite len_repeat. lia. }
    + rewrite K2. cbn [bind]. unfold malloc. rewrite skipn_all2, app_nil_r by (rewrite repeat_length; lia).
      rewrite FS in K1. eexists. split; [reflexivity|]. intros bs'. split.
      * intros Q. injection Q as Q. assert (bs = bs') as <-.
        { clear - Q. revert bs' Q. induction bs; destruct bs'; cbn; intros; try discriminate; auto. injection Q as -> Q. f_equal; auto. }
        split; auto. intros ->. inversion K1 as [K|]. rewrite <- K in E1. discriminate E1.
      * intros (_ & H'). rewrite (hex_of_fun _ _ _ H' K1). reflexivity.
    + rewrite K3. cbn [bind]. exists None. split; auto. intros bs'. split; [discriminate|].
      intros (_ & H'). rewrite FS in K1. exfalso. eapply K1; eauto.
  - exists None. split; auto. intros bs. split; [discriminate|]. intros (Hb & H'). exfalso.
    assert (0 < len bs) by (destruct bs; [congruence|]; rewrite len_cons; pose proof (len_nonneg bs); lia).
    apply hex_of_len in H'. rewrite H', Z.even_mul in E. change (Z.even 2) with true in E. cbn [orb] in E. lia.
Qed.
Print Assumptions C27_hex2bytes.

Theorem C27_hex_null : forall s n buf,
  hex2bin None n buf = Ok (false, buf) /\ hex2bin s n None = Ok (false, None) /\ hex2bytes None n = Ok None.
Proof. intros. split; [reflexivity|]. split; [destruct s; reflexivity|reflexivity]. Qed.
Print Assumptions C27_hex_null.

Example C27_example :
  hex2bin (Some [48; 97; 70; 103]) 4 (Some [Some 7; None; Some 9]) = Ok (false, Some [Some 10; None; Some 9]) /\
  hex2bin (Some [48; 97; 70; 57; 103]) 4 (Some [Some 7; None; Some 9]) = Ok (true, Some [Some 10; Some 249; Some 9]) /\
  hex2bin (Some [48; 97; 70; 57; 103]) 3 (Some [Some 7; None]) = Ok (false, Some [Some 7; None]) /\
  hex2bytes (Some [66; 98; 200; 48; 0]) (-1) = Ok None /\
  hex2bytes (Some [66; 98; 200; 48; 0]) 2 = Ok (Some [Some 187]).
Proof. vm_compute. auto. Qed.

(* ------------------------------------------------------------------ C28 *)
(* ISO C: isprint is called with a negative char for bytes from 0x80 on *)
Theorem C28_hexdump_refuted : exists isp data buf,
  Forall is_byte data /\ len buf = 70 /\ hexdump Strict isp buf data (len data) = Fail OobRead.
Proof.
  exists (fun _ => true), [65; 200], (malloc 70). split; [repeat constructor; unfold is_byte; lia|].
  split; vm_compute; reflexivity.
Qed.
Print Assumptions C28_hexdump_refuted.

(* Missing: bytes from 0x80 on if isprint does not accept negative characters *)
Theorem C28_hexdump_partial : forall d isp buf data n rest,
  Forall is_byte (data ++ rest) -> 70 <= len buf ->
  0 <= n -> len data = Z.min n 16 ->
  d = Wrap \/ Forall (fun b => b < 128 \/ b = 255) data ->
  let line := dump_line (fun b => isp (if b <? 128 then b else b - 256)) data in
  hexdump d isp buf (data ++ rest) n =
    Ok (Z.min n 16, map Some (line ++ [0]) ++ skipn (length line + 1) buf) /\ len line + 1 <= 70.
Proof.
  intros d isp buf data n rest HB Hb Hn Hd Hc line.
  assert (firstn (Z.to_nat (Z.min n 16)) (data ++ rest) = data) as F.
  { rewrite <- Hd. unfold len. rewrite Nat2Z.id, firstn_app, Nat.sub_diag, firstn_all. cbn [firstn]. apply app_nil_r. }
  destruct (hexdump_spec d isp buf (data ++ rest) n) as (E & L); auto.
  - rewrite len_app. pose proof (len_nonneg rest). lia.
  - rewrite F. auto.
  - rewrite F in E, L. split; [exact E|]. unfold line. change (fun b => isp (s8 b)) with (fun b => isp (if b <? 128 then b else b - 256)) in L. lia.
Qed.
Print Assumptions C28_hexdump_partial.

(* a full line takes the whole buffer; a short one *)
Example C28_example :
  len (dump_line (fun _ => true) (repeat 65 16)) + 1 = 70 /\
  hexdump Wrap (fun c => (32 <=? c) && (c <? 127)) (malloc 70) [104; 105; 200; 0] 3 =
    Ok (3, map Some ([54;56;32; 54;57;32; 99;56] ++ repeat 32 44 ++ [104; 105; 46; 0]) ++ repeat None 14).
Proof. vm_compute. auto. Qed.

(* gutil_data2hex returns NULL for NULL and only then; otherwise the text of gutil_bin2hex, an empty one for no bytes *)
Theorem C26_data2hex : forall data upper, (forall b n, data = Some (b, n) -> Forall is_byte b /\ 0 <= n <= len b /\ 2 * n + 1 < 2^64) ->
  exists r, data2hex data upper = Ok r /\ (r = None <-> data = None) /\
    (forall b n, data = Some (b, n) -> exists t, r = Some (map Some (c_string t [])) /\ len t = 2 * n /\ Forall (in_case upper) t /\ bin2hex b n upper = Ok (map Some (c_string t []))).
Proof.
  intros [(b, n)|] upper H; cbn [data2hex].
  - destruct (H b n eq_refl) as (Hb & Hn & Hs). rewrite bin2hex_spec by auto. cbn [bind]. eexists. split; [reflexivity|]. split; [split; discriminate|]. intros b' n' E. injection E as <- <-.
    exists (flat_map (hex2 upper) (slice b 0 n)). split; [reflexivity|].
    assert (Hf : Forall is_byte (slice b 0 n)) by (rewrite slice_0; apply Forall_forall; intros x Hx; rewrite Forall_forall in Hb; apply Hb; rewrite <- (firstn_skipn (Z.to_nat n) b); apply in_or_app; auto).
    split; [rewrite len_flat_hex2, slice_0; unfold len in *; rewrite firstn_length; lia|]. split; [|rewrite bin2hex_spec by auto; reflexivity].
    clear - Hf. induction Hf as [|x l Hx H IH]; [constructor|]. unfold is_byte in Hx. cbn [flat_map hex2 app].
    constructor; [|constructor; [|exact IH]]; unfold in_case, digit; destruct upper; match goal with |- context [?x <? 10] => destruct (x <? 10) eqn:? end; lia.
  - exists None. split; auto. split; [tauto|]. discriminate.
Qed.
Print Assumptions C26_data2hex.

Example C26_example_data2hex : data2hex None true = Ok None /\ data2hex (Some ([], 0)) true = Ok (Some [Some 0]) /\ data2hex (Some ([171], 1)) true = Ok (Some [Some 65; Some 66; Some 0]).
Proof. repeat split. Qed.
