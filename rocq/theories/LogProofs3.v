(* Proofs about LogModel.v: dump *)
From Coq Require Import String Ascii List.
From Verif Require Import Base HexModel HexSpec HexProofs LogModel LogSpec LogProofs LogProofs2.
Import ListNotations.
Open Scope Z_scope.

Lemma hex_from_app s : forall a e, hex_from a (s ++ e) = match hex_from a s with Some b => hex_from b e | None => None end.
Proof. induction s as [|c s IH]; intros a e; [reflexivity|]. cbn [app hex_from]. destruct (_ && _); [apply IH|]. destruct (_ && _); [apply IH|reflexivity]. Qed.
Lemma hex_from_digit a v : 0 <= v < 16 -> hex_from a [hex_digit_upper v] = Some (16 * a + v).
Proof.
  intros H. unfold hex_digit_upper. cbn [hex_from]. destruct (Z.ltb_spec v 10).
  - destruct (Z.leb_spec 48 (48 + v)), (Z.leb_spec (48 + v) 57); cbn [andb]; try lia. f_equal. lia.
  - destruct (Z.leb_spec 48 (55 + v)), (Z.leb_spec (55 + v) 57); cbn [andb]; try lia. destruct (Z.leb_spec 65 (55 + v)), (Z.leb_spec (55 + v) 70); cbn [andb]; try lia. f_equal. lia.
Qed.
Lemma digit_48 v : 0 <= v < 16 -> v <> 0 -> hex_digit_upper v <> 48.
Proof. unfold hex_digit_upper. intros. destruct (Z.ltb_spec v 10); lia. Qed.
Lemma digit_nz v : 0 <= v < 16 -> hex_digit_upper v <> 0.
Proof. unfold hex_digit_upper. intros. destruct (Z.ltb_spec v 10); lia. Qed.

Lemma fmt_X_spec fuel : forall w v acc, 0 <= v < 16 ^ Z.of_nat fuel -> (w <= fuel)%nat ->
  exists s, fmt_X fuel w v acc = s ++ acc /\ hex_from 0 s = Some v /\ no_nul s /\ Z.of_nat w <= len s /\ (len s = Z.of_nat w \/ hd 48 s <> 48).
Proof.
  induction fuel as [|fuel IH]; intros w v acc Hv Hw.
  - assert (w = 0)%nat as -> by lia. change (16 ^ Z.of_nat 0) with 1 in Hv. exists []. repeat split; [cbn; f_equal; lia|constructor|cbn; lia|auto].
  - cbn [fmt_X]. destruct ((v =? 0) && match w with O => true | _ => false end) eqn:E.
    + apply andb_true_iff in E. destruct E as (E1 & E2). destruct w; [|discriminate]. exists []. repeat split; [cbn; f_equal; lia|constructor|cbn; lia|auto].
    + assert (Hd : 0 <= v / 16 < 16 ^ Z.of_nat fuel). { split; [apply Z.div_pos; lia|]. apply Z.div_lt_upper_bound; [lia|]. rewrite Nat2Z.inj_succ, Z.pow_succ_r in Hv by lia. lia. }
      pose proof (Z.mod_pos_bound v 16 ltac:(lia)) as Hm.
      destruct (IH (pred w) (v / 16) (hex_digit_upper (v mod 16) :: acc) Hd ltac:(lia)) as (s & Es & Hs & Ns & Ls & Hh).
      exists (s ++ [hex_digit_upper (v mod 16)]). rewrite Es, <- app_assoc. split; [reflexivity|]. rewrite hex_from_app, Hs, hex_from_digit by auto. split; [f_equal; pose proof (Z.div_mod v 16); lia|].
      split; [apply Forall_app; split; [auto|constructor; [apply digit_nz; auto|constructor]]|]. rewrite len_app. change (len [hex_digit_upper (v mod 16)]) with 1. split; [lia|].
      destruct s as [|c s].
      * cbn [hex_from] in Hs. injection Hs as Hs. destruct w as [|w].
        -- right. cbn [app hd]. apply digit_48; auto. intros Z0. pose proof (Z.div_mod v 16). assert (v = 0) by lia. subst v. discriminate.
        -- left. cbn in Ls. change (len (@nil Z)) with 0 in *. destruct Hh as [Hh|Hh]; [lia|]. cbn in Hh. congruence.
      * destruct Hh as [Hh|Hh]; [|right; exact Hh]. destruct w as [|w]; [rewrite len_cons in Hh; pose proof (len_nonneg s); cbn [Nat.pred Z.of_nat] in Hh; exfalso; lia|]. left. lia.
Qed.
Lemma fmt_04X v : 0 <= v < 2 ^ 32 -> hex_number 4 v (fmt_X 8 4 v []) /\ no_nul (fmt_X 8 4 v []).
Proof. intros H. destruct (fmt_X_spec 8 4 v []) as (s & -> & H1 & H2 & H3 & H4); [exact H|lia|]. rewrite app_nil_r. unfold hex_number. auto. Qed.

Lemma hex2_nz b : is_byte b -> no_nul (hex2 false b).
Proof.
  unfold is_byte. intros H. assert (0 <= b / 16 < 16) by (split; [apply Z.div_pos; lia|apply Z.div_lt_upper_bound; lia]). pose proof (Z.mod_pos_bound b 16 ltac:(lia)).
  unfold hex2, digit. repeat constructor; match goal with |- context [?x <? 10] => destruct (Z.ltb_spec x 10) end; lia.
Qed.
Lemma dump_line_nz pr data : Forall is_byte data -> pr 0 = false -> no_nul (dump_line pr data).
Proof.
  intros Hb Hp. unfold dump_line, no_nul. apply Forall_app. split.
  - unfold hex_part. apply Forall_forall. intros c Hc. apply in_flat_map in Hc. destruct Hc as (i & _ & Hc). apply in_app_iff in Hc. destruct Hc as [Hc|Hc].
    + unfold sep, space in Hc. destruct i as [|[|[|[|[|[|[|[|[|i]]]]]]]]]; cbn in Hc; intuition lia.
    + unfold byte_field in Hc. destruct (nth_error data i) as [b|] eqn:E.
      * apply nth_error_In in E. rewrite Forall_forall in Hb. pose proof (hex2_nz b (Hb b E)) as X. unfold no_nul in X. rewrite Forall_forall in X. apply X. exact Hc.
      * unfold space in Hc. cbn in Hc. intuition lia.
  - unfold space. apply Forall_app. split; [repeat constructor; lia|]. unfold text_part. set (t := map _ _).
    assert (Ht : Forall (fun c => c <> 0) t).
    { unfold t. apply Forall_map. apply Forall_forall. intros b Ib. destruct (pr b) eqn:Ep; [|lia]. intros ->. congruence. }
    destruct (8 <? length t)%nat; [|exact Ht]. rewrite <- (firstn_skipn 8 t) in Ht. apply Forall_app in Ht. destruct Ht. unfold space. apply Forall_app. split; auto. apply Forall_app. split; auto. repeat constructor. lia.
Qed.

Lemma Forall_skipn {A} (P : A -> Prop) l : forall n, Forall P l -> Forall P (skipn n l).
Proof. induction l; intros [|n] H; cbn; auto. inversion H; auto. Qed.
Lemma Forall_firstn {A} (P : A -> Prop) l : forall n, Forall P l -> Forall P (firstn n l).
Proof. induction l; intros [|n] H; cbn; auto. inversion H; auto. Qed.

(* one turn of the loop *)
Lemma dump_turn d isp data off sz : Forall is_byte data -> portable d data -> isp 0 = false -> 0 <= off -> 0 <= sz -> off + Z.min sz 16 <= len data ->
  exists buf, hexdump d isp (malloc 70) (skipn (Z.to_nat off) data) sz = Ok (Z.min sz 16, buf) /\
    cstr buf = Ok (dump_line (fun b => isp (s8 b)) (firstn (Z.to_nat (Z.min sz 16)) (skipn (Z.to_nat off) data))).
Proof.
  intros Hb Hp Hi Ho Hs Hl. destruct (hexdump_spec d isp (malloc 70) (skipn (Z.to_nat off) data) sz) as (E & _).
  - apply Forall_skipn. auto.
  - auto.
  - unfold len in *. rewrite skipn_length. lia.
  - rewrite malloc_length; lia.
  - destruct Hp as [->|Hp]; [auto|]. right. apply Forall_firstn, Forall_skipn. auto.
  - rewrite E. eexists. split; [reflexivity|]. apply cstr_text. apply dump_line_nz; [apply Forall_firstn, Forall_skipn; auto|]. exact Hi.
Qed.

Lemma skipn_skipn' {A} (l : list A) : forall a b, skipn a (skipn b l) = skipn (b + a) l.
Proof. induction l as [|x l IH]; intros a [|b]; cbn; auto. destruct a; auto. Qed.

Lemma dump_loop_spec d isp prefix data : Forall is_byte data -> portable d data -> isp 0 = false -> len data < 2 ^ 32 ->
  forall fuel off, 0 <= off <= len data -> len data - off <= 16 * Z.of_nat fuel ->
  exists l, dump_loop fuel d isp prefix data off (len data - off) = Ok l /\ dump_lines (fun b => isp (s8 b)) prefix off (skipn (Z.to_nat off) data) l.
Proof.
  intros Hb Hp Hi Hl. induction fuel as [|fuel IH]; intros off Ho Hf; cbn [dump_loop]; destruct (Z.gtb_spec (len data - off) 0) as [G|G]; try lia.
  - exists []. split; auto. rewrite skipn_all2 by (unfold len in *; lia). constructor.
  - rewrite u32_id by (unfold in_u32; lia). destruct (dump_turn d isp data off (len data - off)) as (buf & E & C); auto; try lia. rewrite E. cbn [bind]. rewrite C. cbn [bind].
    destruct (fmt_04X off) as (N & _); [lia|]. rewrite (u32_id (off + _)) by (unfold in_u32; lia). rewrite u64_id by (unfold in_u64; lia).
    replace (len data - off - Z.min (len data - off) 16) with (len data - (off + Z.min (len data - off) 16)) by lia.
    destruct (IH (off + Z.min (len data - off) 16)) as (l & El & Hd); [lia|lia|]. rewrite El. cbn [bind]. eexists. split; [reflexivity|].
    assert (Lr : len (skipn (Z.to_nat off) data) = len data - off) by (unfold len in *; rewrite skipn_length; lia).
    destruct (Z.le_gt_cases (len data - off) 16) as [L|L].
    + rewrite Z.min_l in * by lia. replace (off + (len data - off)) with (len data) in * by lia. rewrite Z.sub_diag in El.
      assert (l = []) as -> by (destruct fuel; cbn in El; congruence). rewrite firstn_all2 by (unfold len in *; rewrite skipn_length; lia). apply dl_last; auto; [|lia]. intros X. rewrite X in Lr. cbn in Lr. change (len (@nil Z)) with 0 in Lr. lia.
    + rewrite Z.min_r in * by lia. change (Z.to_nat 16) with 16%nat in *. rewrite <- (firstn_skipn 16 (skipn (Z.to_nat off) data)) at 1. rewrite skipn_skipn'.
      replace (Z.to_nat off + 16)%nat with (Z.to_nat (off + 16)) by lia. apply dl_more; auto.
      * unfold len in *. rewrite firstn_length. lia.
      * intros X. assert (Y : len (skipn (Z.to_nat (off + 16)) data) = len data - (off + 16)) by (unfold len in *; rewrite skipn_length; lia). rewrite X in Y. change (len (@nil Z)) with 0 in Y. lia.
  - exists []. split; auto. rewrite skipn_all2 by (unfold len in *; lia). constructor.
Qed.

(* from 4 GB on: the part of the length above 2^32 is never used up *)
Lemma dump_loop_never d isp prefix data : Forall is_byte data -> portable d data -> isp 0 = false ->
  forall fuel off size, 2 ^ 32 <= size < 2 ^ 64 -> 0 <= off -> off + u32 size < 2 ^ 32 -> off + u32 size <= len data ->
  dump_loop fuel d isp prefix data off size = Fail NoFuel.
Proof.
  intros Hb Hp Hi. induction fuel as [|fuel IH]; intros off size Hs Ho Hr Hl; cbn [dump_loop]; destruct (Z.gtb_spec size 0); try lia; auto.
  pose proof (u32_range size) as Ru. unfold in_u32 in Ru. destruct (dump_turn d isp data off (u32 size)) as (buf & E & C); auto; try lia. rewrite E. cbn [bind]. rewrite C. cbn [bind].
  set (k := Z.min (u32 size) 16) in *. assert (Hk : 0 <= k <= u32 size) by (unfold k; lia).
  assert (Hd : size = 2 ^ 32 * (size / 2 ^ 32) + u32 size) by (unfold u32; apply Z.div_mod; lia). assert (Hq : 1 <= size / 2 ^ 32) by (apply Z.div_le_lower_bound; lia).
  assert (Hu : u32 (size - k) = u32 size - k). { unfold u32 at 1. symmetry. apply (Z.mod_unique_pos _ _ (size / 2 ^ 32)); lia. }
  rewrite u32_id by (unfold in_u32; lia). rewrite u64_id by (unfold in_u64; lia). rewrite IH; [reflexivity|lia|lia|lia|lia].
Qed.

(* the lines are logged as messages of the module *)
Lemma logv_enabled c m x lv text fuel b : nth_error (c_mods c) (dest m) = Some x -> plain c m -> enabled fuel c m lv = Ok b ->
  exists o, logv fuel c m lv text = Ok o /\ (b = false -> o = None) /\ (b = true -> goes c (dest m) x lv text o).
Proof.
  intros Ex Pl. unfold enabled, logv. destruct (c_func2 c) as [p|] eqn:F2; [|intros H; injection H as <-; exists None; repeat split; auto; discriminate].
  destruct (lv =? NONE); [intros H; injection H as <-; exists None; repeat split; auto; discriminate|]. intros H. pose proof (logv_r_enabled c (dest m) x p lv text Ex F2 fuel (dest m) b) as L. destruct m as [m|]; [exact (L H)|].
  destruct fuel as [|fuel]; [discriminate|]. destruct (Pl eq_refl x Ex) as (P1 & P2). unfold off in P1. cbn [dest] in *. rewrite (logv_none_default c x lv text fuel Ex); [exact (L H)| |exact P2]. rewrite disabled_bit. destruct (Z.testbit (m_flags x) 1); congruence.
Qed.

Lemma log_all_enabled c m x lv fuel : nth_error (c_mods c) (dest m) = Some x -> plain c m -> enabled fuel c m lv = Ok true -> forall l,
  (forall text, ~ goes c (dest m) x lv text None) -> exists outs, log_all fuel c m lv l = Ok outs /\ Forall2 (fun line o => goes c (dest m) x lv line (Some o)) l outs.
Proof.
  intros Ex Pl En l Nm. induction l as [|t l (outs & E & F)]; [exists []; split; auto|]. cbn [log_all]. destruct (logv_enabled c m x lv t fuel true Ex Pl En) as (o & Eo & _ & Go). rewrite Eo. cbn [bind]. rewrite E. cbn [bind].
  specialize (Go eq_refl). destruct o as [o|]; [|exfalso; exact (Nm t Go)]. exists (o :: outs). split; auto.
Qed.
