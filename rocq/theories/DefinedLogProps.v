(* C62: when exactly gutil_log and gutil_log_enabled disagree. C64: what exactly options do. C66 once more: dumps of any bytes, with any configuration and of any part of a block; and when exactly ISO C does not define them *)
From Coq Require Import String Ascii List.
From Coq Require Import ZifyBool.
From Verif Require Import Base HexModel HexSpec HexProps DefinedProps LogModel LogSpec LogProofs LogProofs2 LogProofs3 LogProps ReportSpec ReportProofs ReportProofs4.
Import ListNotations.
Open Scope Z_scope.

Definition part (data : list Z) (off n : Z) : list Z := firstn (Z.to_nat n) (skipn (Z.to_nat off) data).
Definition pr (isp : Z -> bool) (b : Z) : bool := isp (if b <? 128 then b else b - 256).

Lemma part_len data off n : 0 <= off -> 0 <= n -> off + n <= len data -> len (part data off n) = n.
Proof. intros. unfold part, len in *. rewrite firstn_length, skipn_length. lia. Qed.
Lemma part_split data off n k : 0 <= off -> 0 <= k <= n -> part data off n = part data off k ++ part data (off + k) (n - k).
Proof.
  intros. unfold part. replace (Z.to_nat n) with (Z.to_nat k + Z.to_nat (n - k))%nat by lia. replace (Z.to_nat (off + k)) with (Z.to_nat off + Z.to_nat k)%nat by lia.
  rewrite <- skipn_skipn'. generalize (skipn (Z.to_nat off) data). intros l. generalize (Z.to_nat k), (Z.to_nat (n - k)). clear. intros a b. revert l. induction a as [|a IH]; intros [|x l]; cbn; auto.
  - rewrite firstn_nil. auto.
  - f_equal. apply IH.
Qed.
Lemma part_rest data off k : 0 <= off -> 0 <= k -> exists r, skipn (Z.to_nat off) data = part data off k ++ r.
Proof. intros. exists (skipn (Z.to_nat k) (skipn (Z.to_nat off) data)). unfold part. symmetry. apply firstn_skipn. Qed.
Lemma part_bytes data off k : Forall is_byte data -> Forall is_byte (part data off k).
Proof. intros. apply Forall_firstn, Forall_skipn. auto. Qed.

(* one line *)
Lemma turn_defined d isp data off n consumed buf line : Forall is_byte data -> isp 0 = false -> 0 <= off -> 0 < n -> off + n <= len data -> n < 2 ^ 32 ->
  hexdump d isp (malloc 70) (skipn (Z.to_nat off) data) (u32 n) = Ok (consumed, buf) -> cstr buf = Ok line -> consumed = Z.min n 16 /\ line = dump_line (pr isp) (part data off (Z.min n 16)).
Proof.
  intros Hb Hi H0 Hn Hl H32 E C. rewrite u32_id in E by (unfold in_u32; lia). destruct (part_rest data off (Z.min n 16)) as (r & Er); try lia. rewrite Er in E.
  destruct (C28_defined d isp (malloc 70) (part data off (Z.min n 16)) n r (consumed, buf)) as (K & _); auto; try lia.
  - rewrite <- Er. apply Forall_skipn. auto.
  - rewrite malloc_length; lia.
  - apply part_len; lia.
  - fold (pr isp) in K. injection K as -> ->. split; auto. fold (pr isp) in C. rewrite cstr_text in C; [congruence|]. apply dump_line_nz; [apply part_bytes; auto|]. exact Hi.
Qed.

Lemma lines_step isp prefix data off n l (N : list Z) : 0 <= off -> 0 < n -> off + n <= len data -> hex_number 4 off N ->
  dump_lines (pr isp) prefix (off + Z.min n 16) (part data (off + Z.min n 16) (n - Z.min n 16)) l ->
  dump_lines (pr isp) prefix off (part data off n) ((prefix ++ N ++ chars ": " ++ dump_line (pr isp) (part data off (Z.min n 16))) :: l).
Proof.
  intros H0 Hn Hl HN D. destruct (Z.le_gt_cases n 16) as [L|L].
  - rewrite Z.min_l in * by lia. rewrite Z.sub_diag in D. change (part data (off + n) 0) with (@nil Z) in D. assert (l = []) as ->.
    { inversion D; subst; auto; [contradiction|]. destruct d; [|discriminate]. cbn in *. contradiction. }
    apply dl_last; auto; [|rewrite part_len; lia]. intros X. pose proof (part_len data off n H0 ltac:(lia) Hl) as K. rewrite X in K. change (len (@nil Z)) with 0 in K. lia.
  - rewrite Z.min_r in * by lia. rewrite (part_split data off n 16) by lia. apply dl_more; auto; [apply part_len; lia|]. intros X.
    pose proof (part_len data (off + 16) (n - 16) ltac:(lia) ltac:(lia) ltac:(lia)) as K. rewrite X in K. change (len (@nil Z)) with 0 in K. lia.
Qed.

Lemma loop_defined d isp prefix data : Forall is_byte data -> isp 0 = false -> forall fuel off n l, 0 <= off -> 0 <= n -> off + n <= len data -> off + n < 2 ^ 32 ->
  dump_loop fuel d isp prefix data off n = Ok l -> dump_lines (pr isp) prefix off (part data off n) l.
Proof.
  intros Hb Hi. induction fuel as [|fuel IH]; intros off n l H0 Hn Hl H32 E; cbn [dump_loop] in E; destruct (Z.gtb_spec n 0) as [G|G]; try discriminate;
    try (assert (n = 0) as -> by lia; injection E as <-; constructor).
  destruct (hexdump d isp (malloc 70) (skipn (Z.to_nat off) data) (u32 n)) as [(consumed, buf)|] eqn:Eh; cbn [bind] in E; [|discriminate].
  destruct (cstr buf) as [line|] eqn:Ec; cbn [bind] in E; [|discriminate]. destruct (turn_defined d isp data off n consumed buf line) as (-> & ->); auto; try lia.
  rewrite (u32_id (off + _)) in E by (unfold in_u32; lia). rewrite u64_id in E by (unfold in_u64; lia).
  destruct (dump_loop fuel d isp prefix data (off + Z.min n 16) (n - Z.min n 16)) as [rest|] eqn:Er; cbn [bind] in E; [|discriminate]. injection E as <-.
  apply lines_step; auto; [apply fmt_04X; lia|]. eapply IH; eauto; lia.
Qed.

Lemma log_all_handled c x0 m lv fuel : nth_error (c_mods c) 0 = Some x0 -> forall l outs, log_all fuel c m lv l = Ok outs ->
  exists os, Forall2 (fun line r => forall o, r = Some o <-> delivered c m lv line o) l os /\ outs = flat_map (fun r : option out => match r with Some o => [o] | None => [] end) os.
Proof.
  intros E0. induction l as [|t l IH]; intros outs E; cbn [log_all] in E; [injection E as <-; exists []; split; [constructor|auto]|].
  destruct (logv fuel c m lv t) as [r|] eqn:El; cbn [bind] in E; [|discriminate]. destruct (log_all fuel c m lv l) as [rest|] eqn:Ea; cbn [bind] in E; [|discriminate]. injection E as <-.
  destruct (IH rest eq_refl) as (os & F & ->). exists (r :: os). split; [|destruct r; auto]. constructor; auto. intros o. apply (logv_spec c x0 m lv t fuel r E0 El).
Qed.

(* Whatever the configuration and the bytes are: if the dump returns, it has logged these lines, or nothing if it is not enabled *)
Theorem C66_defined d isp c x0 m lv prefix data n fuel outs : nth_error (c_mods c) 0 = Some x0 -> isp 0 = false -> Forall is_byte data -> 0 <= n <= len data -> n < 2 ^ 32 ->
  dump fuel d isp c m lv prefix data n = Ok outs ->
  (~ is_enabled c m lv /\ outs = []) \/
  (is_enabled c m lv /\ exists lines os, dump_lines (fun b => isp (if b <? 128 then b else b - 256)) (match prefix with Some p => p | None => [] end) 0 (firstn (Z.to_nat n) data) lines /\
     Forall2 (fun line r => forall o, r = Some o <-> delivered c m lv line o) lines os /\ outs = flat_map (fun r : option out => match r with Some o => [o] | None => [] end) os).
Proof.
  intros E0 Hi Hb Hn H32 E. unfold dump in E. destruct (enabled fuel c m lv) as [e|] eqn:Ee; cbn [bind] in E; [|discriminate]. pose proof (enabled_spec c x0 m lv fuel e E0 Ee) as He.
  destruct e; [|left; injection E as <-; split; auto; intros K; apply He in K; discriminate].
  right. split; [apply He; auto|]. destruct (dump_loop fuel d isp _ data 0 n) as [l|] eqn:El; cbn [bind] in E; [|discriminate].
  destruct (log_all_handled c x0 m lv fuel E0 l outs E) as (os & F & Eo). exists l, os. split; [|auto]. apply (loop_defined d isp _ data Hb Hi fuel 0 n l) in El; auto; lia.
Qed.
Print Assumptions C66_defined.

Definition bad (b : Z) : Prop := 128 <= b < 255.

Lemma loop_good isp prefix data : Forall is_byte data -> isp 0 = false -> forall fuel off n l, 0 <= off -> 0 <= n -> off + n <= len data -> off + n < 2 ^ 32 ->
  dump_loop fuel Strict isp prefix data off n = Ok l -> forall b, In b (part data off n) -> ~ bad b.
Proof.
  intros Hb Hi. induction fuel as [|fuel IH]; intros off n l H0 Hn Hl H32 E b K; cbn [dump_loop] in E; destruct (Z.gtb_spec n 0) as [G|G]; try discriminate;
    try (assert (n = 0) as -> by lia; contradiction).
  destruct (hexdump Strict isp (malloc 70) (skipn (Z.to_nat off) data) (u32 n)) as [(consumed, buf)|] eqn:Eh; cbn [bind] in E; [|discriminate].
  destruct (cstr buf) as [line|] eqn:Ec; cbn [bind] in E; [|discriminate]. destruct (turn_defined Strict isp data off n consumed buf line) as (-> & ->); auto; try lia.
  rewrite (u32_id (off + _)) in E by (unfold in_u32; lia). rewrite u64_id in E by (unfold in_u64; lia).
  destruct (dump_loop fuel Strict isp prefix data (off + Z.min n 16) (n - Z.min n 16)) as [rest|] eqn:Er; cbn [bind] in E; [|discriminate].
  rewrite (part_split data off n (Z.min n 16)) in K by lia. apply in_app_or in K. destruct K as [K|K]; [|apply (IH (off + Z.min n 16) (n - Z.min n 16) rest); auto; lia].
  intros B. destruct (part_rest data off (Z.min n 16)) as (r & Ep); try lia. rewrite u32_id in Eh by (unfold in_u32; lia). rewrite Ep in Eh.
  destruct (C28_undefined isp (malloc 70) (part data off (Z.min n 16)) n r) as (_ & U); auto; try lia.
  - rewrite <- Ep. apply Forall_skipn. auto.
  - rewrite malloc_length; lia.
  - apply part_len; lia.
  - destruct U as (f & U); [exists b; auto|]. congruence.
Qed.

Lemma loop_fine isp prefix data : Forall is_byte data -> isp 0 = false -> forall k off n, 0 <= off -> 0 <= n <= 16 * Z.of_nat k -> off + n <= len data -> off + n < 2 ^ 32 ->
  (forall b, In b (part data off n) -> ~ bad b) -> exists l, forall fuel, (k <= fuel)%nat -> dump_loop fuel Strict isp prefix data off n = Ok l.
Proof.
  intros Hb Hi. induction k as [|k IH]; intros off n H0 Hn Hl H32 Hg.
  - exists []. intros fuel _. assert (n = 0) as -> by lia. destruct fuel; reflexivity.
  - destruct (Z.gtb_spec n 0) as [G|G]; [|exists []; intros fuel _; assert (n = 0) as -> by lia; destruct fuel; reflexivity].
    destruct (IH (off + Z.min n 16) (n - Z.min n 16)) as (l & El); try lia.
    { intros b K. apply Hg. rewrite (part_split data off n (Z.min n 16)) by lia. apply in_or_app. auto. }
    destruct (part_rest data off (Z.min n 16)) as (r & Ep); try lia. eexists. intros [|fuel] Hf; [lia|]. cbn [dump_loop]. replace (n >? 0) with true by lia.
    rewrite u32_id by (unfold in_u32; lia). rewrite Ep. destruct (C28_hexdump_partial Strict isp (malloc 70) (part data off (Z.min n 16)) n r) as (Eh & _); try lia.
    + rewrite <- Ep. apply Forall_skipn. auto.
    + rewrite malloc_length; lia.
    + apply part_len; lia.
    + right. apply Forall_forall. intros b K. assert (is_byte b) as B by (pose proof (part_bytes data off (Z.min n 16) Hb) as F; rewrite Forall_forall in F; auto).
      specialize (Hg b). rewrite (part_split data off n (Z.min n 16)) in Hg by lia. specialize (Hg ltac:(apply in_or_app; auto)). unfold bad, is_byte in *. lia.
    + rewrite Eh. cbn [bind]. rewrite cstr_text by (apply dump_line_nz; [apply part_bytes; auto|exact Hi]). cbn [bind].
      rewrite (u32_id (off + _)) by (unfold in_u32; lia). rewrite u64_id by (unfold in_u64; lia). rewrite El by lia. cbn [bind]. reflexivity.
Qed.

Lemma log_all_fine c m lv : settled c m -> forall l, exists outs, eventually (fun n => log_all n c m lv l) outs.
Proof.
  intros Hs. induction l as [|t l (outs & N & IH)]; [exists [], 0%nat; auto|]. destruct (settled_logv c m lv t Hs) as (r & M & K). eexists. exists (Nat.max N M). intros fuel Hf. cbn [log_all].
  rewrite K, IH by lia. cbn [bind]. reflexivity.
Qed.

(* It is undefined exactly if it is enabled and there is a byte isprint does not know *)
Theorem C66_undefined isp c x0 m lv prefix data n : nth_error (c_mods c) 0 = Some x0 -> isp 0 = false -> Forall is_byte data -> 0 <= n <= len data -> n < 2 ^ 32 -> settled c m ->
  exists N, forall fuel, (N <= fuel)%nat -> ((exists f, dump fuel Strict isp c m lv prefix data n = Fail f) <-> is_enabled c m lv /\ exists b, In b (firstn (Z.to_nat n) data) /\ 128 <= b < 255).
Proof.
  intros E0 Hi Hb Hn H32 Hs. destruct (settled_enabled c m lv Hs) as (e & N1 & He). pose proof (enabled_spec c x0 m lv N1 e E0 (He N1 (le_n _))) as Hd.
  set (p := match prefix with Some p => p | None => [] end). destruct (Exists_dec bad (firstn (Z.to_nat n) data)) as [X|X]; [intros b; unfold bad; destruct (Z_le_dec 128 b), (Z_lt_dec b 255); [left; lia|right; lia..]| |].
  - apply Exists_exists in X. exists N1. intros fuel Hf. unfold dump. rewrite He by auto. cbn [bind]. fold p. destruct e.
    + split; [intros _; split; auto; apply Hd; auto|]. intros _. destruct (dump_loop fuel Strict isp p data 0 n) as [l|f] eqn:E; [|cbn [bind]; eauto].
      exfalso. destruct X as (b & X1 & X2). apply (loop_good isp p data Hb Hi fuel 0 n l ltac:(lia) ltac:(lia) ltac:(lia) ltac:(lia) E b); auto.
    + split; [intros (f & K); discriminate|]. intros (K & _). apply Hd in K. discriminate.
  - assert (Hg : forall b, In b (part data 0 n) -> ~ bad b) by (intros b K B; apply X, Exists_exists; exists b; auto).
    destruct (loop_fine isp p data Hb Hi (Z.to_nat n) 0 n ltac:(lia) ltac:(lia) ltac:(lia) ltac:(lia) Hg) as (l & El). destruct (log_all_fine c m lv Hs l) as (outs & N2 & Ea).
    exists (N1 + N2 + Z.to_nat n)%nat. intros fuel Hf. split.
    + intros (f & K). exfalso. unfold dump in K. rewrite He in K by lia. cbn [bind] in K. fold p in K. rewrite El in K by lia. cbn [bind] in K. rewrite Ea in K by lia. destruct e; discriminate.
    + intros (_ & b & K). exfalso. apply X, Exists_exists. exists b. auto.
Qed.
Print Assumptions C66_undefined.

(* The default module is disabled, so that C66_dump_partial says nothing; with 128 in the data the dump is still defined if it is left out *)
Definition x_off : conf := Conf [LogMod None None None 3 2; LogMod (Some (chars "a")) None None 3 0] (Some FStdout) (Some PDefault).
Example C66_example_defined : dump 5 Strict (fun c => (32 <=? c) && (c <? 127)) x_off None 3 None [65; 128] 2 = Ok [] /\
  (exists f, dump 5 Strict (fun c => (32 <=? c) && (c <? 127)) x_off (Some 1%nat) 3 None [65; 128] 2 = Fail f) /\
  (exists o, dump 5 Strict (fun c => (32 <=? c) && (c <? 127)) x_off (Some 1%nat) 3 None [65; 128] 1 = Ok [o]) /\ settled x_off (Some 1%nat).
Proof.
  split; [vm_compute; reflexivity|]. split; [eexists; vm_compute; reflexivity|]. split; [eexists; vm_compute; reflexivity|].
  exists (LogMod (Some (chars "a")) None None 3 0), 3. split; [reflexivity|]. split; [eexists; split; reflexivity|]. right. exists 3, [], (LogMod (Some (chars "a")) None None 3 0), None.
  split; [apply (path_one (c_mods x_off) 1); reflexivity|]. split; [constructor|]. split; [constructor; [intros X; discriminate X|constructor]|]. left. split; [intros X; discriminate X|reflexivity].
Qed.

(* ---------------- C62 ---------------- *)

Lemma wanted_none lv v : wanted lv v -> lv <> 0.
Proof. unfold wanted. lia. Qed.

Lemma own_or_default mods d m v x : nth_error mods m = Some x -> has_level mods d m v -> ~ inherits x -> v = m_level x.
Proof.
  intros Ex (a & y & p & P & Ia & _ & H) Ni. destruct a as [|z a]; cbn in P.
  - inversion P as [? ? E1|? ? q ? ? E1 E2 P1]; subst; [|inversion P1]. assert (y = x) by congruence. subst. destruct H as [(_ & ->)|(A & _)]; [auto|contradiction].
  - inversion Ia; subst. assert (z = x) by (inversion P; subst; congruence). subst. contradiction.
Qed.

(* With whatever configuration: a message which is enabled gets lost exactly if there is no function for it, or if there is no module and
   the default one inherits its level; one which is not enabled is logged exactly if there is no module and the default one is disabled *)
Theorem C62_exact c x0 m x lv text fuel b r : nth_error (c_mods c) 0 = Some x0 -> nth_error (c_mods c) (dest m) = Some x -> enabled fuel c m lv = Ok b -> logv fuel c m lv text = Ok r ->
  (b = true -> (r = None <-> goes c (dest m) x lv text None \/ (m = None /\ inherits x0 /\ lv <> -2)) /\ (forall o, r = Some o -> goes c (dest m) x lv text (Some o))) /\
  (b = false -> (r <> None <-> m = None /\ c_func2 c <> None /\ silenced (c_mods c) 0 /\ wanted lv (m_level x0) /\ ~ goes c 0 x0 lv text None)).
Proof.
  intros E0 Ex Ee El. pose proof (enabled_spec c x0 m lv fuel b E0 Ee) as He. pose proof (logv_spec c x0 m lv text fuel r E0 El) as Hl.
  assert (Tot : c_func2 c <> None -> exists o, goes c (dest m) x lv text o).
  { intros F. destruct (c_func2 c) as [p|] eqn:F2; [|congruence]. destruct (m_proc x) as [q|] eqn:Q.
    - destruct (goes_call c (dest m) x lv text q Ex (or_introl Q)) as (o & _ & G). eauto.
    - destruct (goes_call c (dest m) x lv text p Ex (or_intror (conj Q F2))) as (o & _ & G). eauto. }
  split; intros ->.
  - destruct He as (He & _). destruct (He eq_refl) as (F & d & v & (y & Ey & <-) & Hv & W). assert (y = x0) by congruence. subst y. split; [split|].
    + intros ->. destruct (Tot F) as ([o|] & G); [right|left; auto]. destruct m as [k|].
      * exfalso. assert (None = Some o); [|discriminate]. apply Hl. split; auto. split; [|eauto]. exists (m_level x0), v. split; [exists x0; auto|]. auto.
      * split; auto. assert (N : ~ wanted lv (m_level x0)).
        { intros W'. assert (None = Some o); [|discriminate]. apply Hl. split; auto. split; [|eauto]. exists (m_level x0), (m_level x0). split; [exists x0; auto|]. auto. }
        split; [|unfold wanted in N; intros ->; apply N; auto]. unfold inherits. destruct (Z.eq_dec (m_level x0) (-1)); auto. exfalso. apply N. rewrite <- (own_or_default _ _ _ _ _ E0 Hv); auto.
    + intros H. destruct r as [o|]; auto. exfalso. destruct (proj1 (Hl o) eq_refl) as (_ & (d' & v' & (y & Ey' & <-) & Hv' & W') & z & Ez & G). assert (y = x0) by congruence. subst y. assert (z = x) by congruence. subst z.
      destruct H as [H|(-> & H1 & H2)]; [pose proof (goes_fun _ _ _ _ _ _ _ H G); discriminate|]. rewrite Hv' in W'. unfold inherits in H1. unfold wanted in W'. lia.
    + intros o ->. destruct (proj1 (Hl o) eq_refl) as (_ & _ & z & Ez & G). assert (z = x) by congruence. subst z. auto.
  - split.
    + intros Hr. destruct r as [o|]; [|congruence]. destruct (proj1 (Hl o) eq_refl) as (F & (d' & v' & (y & Ey & <-) & Hv' & W') & z & Ez & G). assert (y = x0) by congruence. subst y. assert (z = x) by congruence. subst z.
      destruct m as [k|]; [exfalso; assert (false = true) by (apply He; split; auto; exists (m_level x0), v'; split; [exists x0; auto|auto]); discriminate|].
      subst v'. split; auto. split; auto. cbn [dest] in *. assert (x = x0) by congruence. subst x. split; [|split; auto; intros G'; pose proof (goes_fun _ _ _ _ _ _ _ G' G); discriminate].
      unfold enabled in Ee. destruct (c_func2 c) as [p|]; [|congruence]. unfold NONE in Ee. pose proof (wanted_none _ _ W'). replace (lv =? 0) with false in Ee by lia.
      destruct (enabled_r_inv c x0 lv E0 fuel 0 false Ee) as [(S & _)|(v & Hv & P)]; auto. exfalso. assert (N : ~ wanted lv v) by (intros K; apply passes_wanted in K; congruence). apply N.
      destruct (Z.eq_dec (m_level x0) (-1)) as [I|I]; [unfold wanted in *; lia|]. rewrite (own_or_default _ _ _ _ _ E0 Hv); auto.
    + intros (-> & F & S & W & G) ->. cbn [dest] in *. assert (x = x0) by congruence. subst x. destruct (Tot F) as ([o|] & G'); [|contradiction].
      assert (None = Some o); [|discriminate]. apply Hl. split; auto. split; [|eauto]. exists (m_level x0), (m_level x0). split; [exists x0; auto|]. auto.
Qed.
Print Assumptions C62_exact.

(* the default module is disabled; it inherits its level; there is no function *)
Definition x_inherit : conf := Conf [LogMod None (Some 1%nat) None (-1) 0; LogMod (Some (chars "a")) None None 3 0] (Some FStdout) (Some PDefault).
Example C62_example_exact : enabled 5 x_off None 3 = Ok false /\ logv 5 x_off None 3 (chars "hi") = Ok (Some (OFunc FStdout None 3 (chars "hi"))) /\ silenced (c_mods x_off) 0 /\
  enabled 5 x_inherit None 3 = Ok true /\ logv 5 x_inherit None 3 (chars "hi") = Ok None /\
  enabled 5 (set_func x_conf None) (Some 1%nat) 3 = Ok true /\ logv 5 (set_func x_conf None) (Some 1%nat) 3 (chars "hi") = Ok None.
Proof.
  split; [vm_compute; reflexivity|]. split; [vm_compute; reflexivity|]. split; [|repeat split; vm_compute; reflexivity].
  exists [], (LogMod None None None 3 2), None. split; [apply (path_one (c_mods x_off) 0); reflexivity|]. split; [constructor|reflexivity].
Qed.

(* ---------------- C64 ---------------- *)

Lemma level_dec lv : no_nul lv -> (exists v, names_level lv v) \/ forall v, ~ names_level lv v.
Proof.
  intros N3.
  destruct (parse_level lv true) as (l & b) eqn:El. destruct b.
      - right. intros v V. rewrite (proj1 (parse_level_spec lv true N3) v V) in El. congruence.
      - left. assert (Hl : 0 <= l <= 5 \/ l < 0 \/ 5 < l) by lia. assert (X : (forall v, ~ names_level lv v) -> False). { intros X. rewrite (proj2 (parse_level_spec lv true N3) X) in El. congruence. }
        assert (Dec : forall n, (exists v, 0 <= v < Z.of_nat n /\ names_level lv v) \/ forall v, 0 <= v < Z.of_nat n -> ~ names_level lv v).
        { induction n as [|n [(v & Hv & V)|IH]]; [right; intros; lia|left; exists v; split; [lia|auto]|].
          assert (Dn : names_level lv (Z.of_nat n) \/ ~ names_level lv (Z.of_nat n)).
          { unfold names_level. destruct (list_eq_dec Z.eq_dec lv [48 + Z.of_nat n]) as [E1|E1].
            - destruct (Z_le_dec (Z.of_nat n) 5); [left; left; split; [lia|auto]|]. right. intros [(A & _)|(_ & _ & r & A)]; [lia|]. assert (Hn : (length words <= Z.to_nat (Z.of_nat n))%nat) by (cbn; lia). apply nth_error_None in Hn. congruence.
            - destruct lv as [|c0 t]; [right; intros [(_ & A)|(A & _)]; congruence|]. destruct (nth_error words (Z.to_nat (Z.of_nat n))) as [w|] eqn:Ew; [|right; intros [(_ & A)|(_ & _ & r & A)]; congruence].
              destruct (list_eq_dec Z.eq_dec (firstn (length (c0 :: t)) w) (c0 :: t)) as [E2|E2].
              + left. right. split; [discriminate|]. split; [lia|]. exists (skipn (length (c0 :: t)) w). f_equal. rewrite <- E2 at 1. symmetry. apply firstn_skipn.
              + right. intros [(_ & A)|(_ & _ & r & A)]; [congruence|]. injection A as ->. apply E2. change (firstn (length (c0 :: t)) ((c0 :: t) ++ r) = c0 :: t). rewrite firstn_app, Nat.sub_diag, firstn_all. cbn [firstn]. apply app_nil_r. }
          destruct Dn as [Dn|Dn]; [left; exists (Z.of_nat n); split; [lia|auto]|]. right. intros v Hv V. destruct (Z.eq_dec v (Z.of_nat n)) as [->|]; [auto|]. apply (IH v); [lia|auto]. }
        destruct (Dec 6%nat) as [(v & _ & V)|V]; [eauto|]. exfalso. apply X. intros v Vv. apply (V v); auto. destruct Vv as [(A & _)|(_ & A & r & B)]; [lia|]. split; auto.
        assert (Y : (Z.to_nat v < length words)%nat) by (apply nth_error_Some; congruence). cbn in Y. lia.
Qed.

(* a module without a name comes before the first one with the name *)
Definition stumbles (c : conf) (modules : list nat) (name : list Z) : Prop :=
  exists a m b, modules = a ++ m :: b /\ name_of c m = None /\ forall k, In k a -> exists kn, name_of c k = Some kn /\ ~ same_name kn name.

Lemma find_module_exact c name : no_nul name -> forall modules, Forall (fun m => exists x, nth_error (c_mods c) m = Some x /\ forall n, m_name x = Some n -> no_nul n) modules ->
  forall n pre, (n <= length modules)%nat ->
    match find_module n c (pre ++ modules) (len pre) name with
    | Ok (Some m) => exists a b nm, firstn n modules = a ++ m :: b /\ name_of c m = Some nm /\ same_name nm name /\ forall k, In k a -> exists kn, name_of c k = Some kn /\ ~ same_name kn name
    | Ok None => forall m, In m (firstn n modules) -> exists nm, name_of c m = Some nm /\ ~ same_name nm name
    | Fail f => f = NullDeref /\ stumbles c (firstn n modules) name
    end.
Proof.
  intros Nn. induction modules as [|m modules IH]; intros Hv n pre Hn.
  - cbn in Hn. assert (n = 0)%nat as -> by lia. cbn. intros ? [].
  - destruct n as [|n]; [cbn; intros ? []|]. inversion Hv as [|? ? (x & Ex & Nx) Hv']; subst. cbn [find_module firstn].
    assert (Hr : rd (pre ++ m :: modules) (len pre) = Ok m). { apply rd_ok. split; [apply len_nonneg|]. unfold len. rewrite Nat2Z.id, nth_error_app2, Nat.sub_diag by lia. reflexivity. }
    rewrite Hr. cbn [bind]. rewrite (the_mod_ok _ _ _ Ex). cbn [bind]. assert (En : name_of c m = m_name x) by (unfold name_of; rewrite Ex; auto).
    specialize (IH Hv' n (pre ++ [m])). rewrite <- app_assoc, len_app in IH. cbn [app] in IH. change (len [m]) with 1 in IH. assert (n <= length modules)%nat as Hn' by (cbn in Hn; lia). specialize (IH Hn').
    destruct (m_name x) as [nm|] eqn:Em; cbn [g_strncasecmp strlen bind].
    + assert (Miss : ~ same_name nm name -> match find_module n c (pre ++ m :: modules) (len pre + 1) name with
        | Ok (Some m') => exists a b nm, m :: firstn n modules = a ++ m' :: b /\ name_of c m' = Some nm /\ same_name nm name /\ forall k, In k a -> exists kn, name_of c k = Some kn /\ ~ same_name kn name
        | Ok None => forall m', In m' (m :: firstn n modules) -> exists nm, name_of c m' = Some nm /\ ~ same_name nm name
        | Fail f => f = NullDeref /\ stumbles c (m :: firstn n modules) name end).
      { intros Ns. destruct (find_module n c (pre ++ m :: modules) (len pre + 1) name) as [[m'|]|f].
        - destruct IH as (a & b & nm' & E1 & E2 & E3 & E4). exists (m :: a), b, nm'. split; [cbn; congruence|]. split; auto. split; auto. intros k [<-|K]; eauto.
        - intros m' [<-|K]; eauto.
        - destruct IH as (-> & a & m' & b & E1 & E2 & E3). split; auto. exists (m :: a), m', b. split; [cbn; congruence|]. split; auto. intros k [<-|K]; eauto. }
      pose proof (ncasecmp_same name nm (Nx nm eq_refl) Nn) as Sm. destruct (Z.eqb_spec (ncasecmp (length name) nm name) 0) as [Z0|Z0].
      * destruct (Z.eqb_spec (len nm) (len name)) as [L|L].
        -- exists [], (firstn n modules), nm. split; [reflexivity|]. split; [auto|]. split; [apply Sm; split; auto; unfold len in L; lia|]. intros ? [].
        -- apply Miss. intros X. apply Sm in X. unfold len in L. lia.
      * apply Miss. intros X. apply Sm in X. lia.
    + cbn. split; auto. exists [], m, (firstn n modules). split; [reflexivity|]. split; auto. intros ? [].
Qed.

(* What gutil_log_parse_option does with any option, and any modules with or without names: it fails exactly if it meets a module without
   a name *)
Theorem C64_exact c x0 opt modules count e : nth_error (c_mods c) 0 = Some x0 -> no_nul opt -> count <= len modules ->
  Forall (fun m => exists x, nth_error (c_mods c) m = Some x /\ forall n, m_name x = Some n -> no_nul n) modules ->
  match parse_option c opt modules count e with
  | Ok (true, c', e') => e' = false /\
      ((~ In 58 opt /\ exists v, names_level opt v /\ only_level c c' 0 v) \/
       exists name lv v m, opt = name ++ chars ":" ++ lv /\ ~ In 58 name /\ names_level lv v /\ first_named c (firstn (Z.to_nat count) modules) name m /\ only_level c c' m v)
  | Ok (false, c', e') => c' = c /\ e' = e /\
      ((~ In 58 opt /\ forall v, ~ names_level opt v) \/
       exists name lv, opt = name ++ chars ":" ++ lv /\ ~ In 58 name /\
         ((forall v, ~ names_level lv v) \/ forall m, In m (firstn (Z.to_nat count) modules) -> exists nm, name_of c m = Some nm /\ ~ same_name nm name))
  | Fail f => f = NullDeref /\ exists name lv v, opt = name ++ chars ":" ++ lv /\ ~ In 58 name /\ names_level lv v /\ stumbles c (firstn (Z.to_nat count) modules) name
  end.
Proof.
  intros E0 Nn Hc Hm. unfold parse_option. destruct (split_at 58 opt) as [(name & lv)|] eqn:Es.
  - apply split_at_inv in Es. destruct Es as (-> & Nc). unfold no_nul in Nn. apply Forall_app in Nn. destruct Nn as (N1 & N2). inversion N2 as [|? ? _ N3]; subst. destruct (parse_level_spec lv e N3) as (P1 & P2).
    destruct (level_dec lv N3) as [(v & V)|V].
    + rewrite (P1 v V). assert (Hv : 0 <= v) by (destruct V as [(H & _)|(_ & H & _)]; lia). destruct (Z.geb_spec v 0); [|lia].
      pose proof (find_module_exact c name N1 modules Hm (Z.to_nat count) []) as H'. cbn [app] in H'. change (len (@nil nat)) with 0 in H'. specialize (H' ltac:(unfold len in Hc; lia)).
      destruct (find_module (Z.to_nat count) c modules 0 name) as [[m|]|f]; cbn [bind].
      * destruct H' as (a & b & nm & E1 & E2 & E3 & E4). assert (Ex : exists x, nth_error (c_mods c) m = Some x) by (unfold name_of in E2; destruct (nth_error (c_mods c) m); [eauto|discriminate]). destruct Ex as (x & Ex).
        destruct (set_level_spec c m x v Ex) as (c' & -> & O). cbn [bind]. split; auto. right. exists name, lv, v, m. split; auto. split; auto. split; auto. split; auto.
        exists a, b, nm. split; auto. split; auto. split; auto. intros k kn K Ek. destruct (E4 k K) as (kn' & Ek' & Ns). congruence.
      * split; auto. split; auto. right. exists name, lv. auto.
      * destruct H' as (-> & H'). split; auto. exists name, lv, v. auto.
    + rewrite (P2 V). cbn. split; auto. split; auto. right. exists name, lv. auto.
  - apply split_at_none in Es. destruct (parse_level_spec opt e Nn) as (P1 & P2). destruct (level_dec opt Nn) as [(v & V)|V].
    + rewrite (P1 v V). assert (Hv : 0 <= v) by (destruct V as [(H & _)|(_ & H & _)]; lia). destruct (Z.geb_spec v 0); [|lia].
      destruct (set_level_spec c 0 x0 v E0) as (c' & -> & O). cbn [bind]. split; auto. left. eauto.
    + rewrite (P2 V). cbn. split; auto.
Qed.
Print Assumptions C64_exact.

(* the module without a name comes after the one which is meant, or before it *)
Example C64_example_exact : (exists c', parse_option x_conf (chars "a:info") [1; 0]%nat 2 true = Ok (true, c', false)) /\ parse_option x_conf (chars "a:info") [0; 1]%nat 2 true = Fail NullDeref /\
  stumbles x_conf [0; 1]%nat (chars "a") /\ parse_option x_conf (chars "b:info") [1; 0]%nat 2 true = Fail NullDeref /\ parse_option x_conf (chars "b:info") [1; 0]%nat 1 true = Ok (false, x_conf, true).
Proof.
  split; [eexists; vm_compute; reflexivity|]. split; [vm_compute; reflexivity|]. split; [|split; vm_compute; reflexivity].
  exists [], 0%nat, [1%nat]. split; [reflexivity|]. split; [reflexivity|]. intros ? [].
Qed.

(* gutil_log_dump_bytes: nothing for NULL, otherwise all bytes of the GBytes, with the prefix *)
Theorem C66_bytes d isp c x0 m lv prefix b fuel outs : nth_error (c_mods c) 0 = Some x0 -> isp 0 = false -> (forall data, b = Some data -> Forall is_byte data /\ len data < 2 ^ 32) ->
  dump_bytes fuel d isp c m lv prefix b = Ok outs ->
  ((b = None \/ ~ is_enabled c m lv) /\ outs = []) \/
  (is_enabled c m lv /\ exists data lines os, b = Some data /\ dump_lines (fun b => isp (if b <? 128 then b else b - 256)) (match prefix with Some p => p | None => [] end) 0 data lines /\
     Forall2 (fun line r => forall o, r = Some o <-> delivered c m lv line o) lines os /\ outs = flat_map (fun r : option out => match r with Some o => [o] | None => [] end) os).
Proof.
  intros E0 Hi Hb E. destruct b as [data|]; cbn [dump_bytes] in E; [|injection E as <-; auto]. destruct (Hb data eq_refl) as (Hd & Hl). pose proof (len_nonneg data).
  destruct (C66_defined d isp c x0 m lv prefix data (len data) fuel outs E0 Hi Hd ltac:(lia) Hl E) as [(N & ->)|(Y & lines & os & D & F & Eo)]; [left; auto|].
  right. split; auto. exists data, lines, os. unfold len in D. rewrite Nat2Z.id, firstn_all in D. auto.
Qed.
Print Assumptions C66_bytes.

(* when it is undefined *)
Theorem C66_bytes_undefined isp c x0 m lv prefix b : nth_error (c_mods c) 0 = Some x0 -> isp 0 = false -> (forall data, b = Some data -> Forall is_byte data /\ len data < 2 ^ 32) -> settled c m ->
  exists N, forall fuel, (N <= fuel)%nat ->
    ((exists f, dump_bytes fuel Strict isp c m lv prefix b = Fail f) <-> is_enabled c m lv /\ exists data x, b = Some data /\ In x data /\ 128 <= x < 255).
Proof.
  intros E0 Hi Hb Hs. destruct b as [data|]; cbn [dump_bytes].
  - destruct (Hb data eq_refl) as (Hd & Hl). pose proof (len_nonneg data). destruct (C66_undefined isp c x0 m lv prefix data (len data) E0 Hi Hd ltac:(lia) Hl Hs) as (N & K). exists N. intros fuel Hf. rewrite (K fuel Hf).
    unfold len. rewrite Nat2Z.id, firstn_all. split; intros (Y & X); (split; [exact Y|]); [destruct X as (x & X); exists data, x; tauto|destruct X as (dd & x & Ed & X); injection Ed as <-; exists x; auto].
  - exists O. intros fuel _. split; [intros (f & K); discriminate|intros (_ & dd & _ & K & _); discriminate].
Qed.
Print Assumptions C66_bytes_undefined.

Example C66_example_bytes : (exists o, dump_bytes 5 Strict (fun c => (32 <=? c) && (c <? 127)) x_conf (Some 3%nat) 4 (Some (chars "> ")) (Some (chars "Hi")) = Ok [o]) /\
  dump_bytes 5 Strict (fun c => (32 <=? c) && (c <? 127)) x_conf (Some 3%nat) 4 (Some (chars "> ")) None = Ok [].
Proof. split; [eexists; vm_compute; reflexivity|reflexivity]. Qed.
