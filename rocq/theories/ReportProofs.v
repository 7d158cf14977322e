(* Lemmas about logging while log functions do things *)
From Coq Require Import String Ascii List Sorted.
From Coq Require Import ZifyBool.
From Verif Require Import Base HexModel HexSpec HexProofs HexProps LogModel LogSpec LogProofs LogProofs2 LogProofs3 LogProps DescModel DataModel DefinedProps ReportModel ReportSpec.
Import ListNotations.
Open Scope Z_scope.

(* ---------------- where messages go ---------------- *)

Lemma level_excl mods d m v : silenced mods m -> has_level mods d m v -> False.
Proof.
  intros (a & x & p & P & Ia & Ox) (a' & x' & p' & P' & Ia' & O' & H). revert m p p' a' x' P P' Ia' O' H. induction a as [|y a IH]; intros m p p' a' x' P P' Ia' O' H.
  - assert (Hd : nth_error mods m = Some x) by (inversion P; subst; auto). destruct a' as [|z a']; cbn in P'.
    + assert (x' = x) by (inversion P'; subst; congruence). subst. cbn in O'. inversion O'; auto.
    + assert (z = x) by (inversion P'; subst; congruence). subst. cbn in O'. inversion O'; auto.
  - inversion Ia as [|? ? Iy Ia1]; subst. cbn in P. inversion P as [? ? E1 E2|? ? q ? ? E1 E2 P1]; subst; [destruct a; discriminate|]. destruct a' as [|z a']; cbn in P'.
    + inversion P' as [? ? F1|? ? q' ? ? F1 F2 P2]; subst; [|inversion P2]. assert (x' = y) by congruence. subst. destruct H as [(N & _)|(_ & N & _)]; [contradiction|congruence].
    + inversion P' as [? ? F1|? ? q' ? ? F1 F2 P2]; subst; [destruct a'; discriminate|]. assert (z = y) by congruence. subst z. assert (q' = q) by congruence. subst q'.
      inversion Ia'; subst. cbn in O'. inversion O'; subst. apply (IH Ia1 q p p' a' x'); auto.
Qed.
Lemma level_uniq mods d m v w : has_level mods d m v -> has_level mods d m w -> w = v.
Proof.
  intros (a & x & p & P & Ia & _ & H) (a' & x' & p' & P' & Ia' & _ & H'). revert m p p' a' x' P H P' Ia' H'. induction a as [|y a IH]; intros m p p' a' x' P H P' Ia' H'; cbn in P.
  - inversion P as [? ? E1|? ? q ? ? E1 E2 P1]; subst; [|inversion P1]. destruct a' as [|z a']; cbn in P'.
    + inversion P' as [? ? F1|? ? q ? ? F1 F2 P1]; subst; [|inversion P1]. assert (x' = x) by congruence. subst. destruct H as [(A & ->)|(A & B & ->)], H' as [(A' & ->)|(A' & B' & ->)]; auto; contradiction.
    + inversion P' as [? ? F1|? ? q ? ? F1 F2 P1]; subst; [destruct a'; discriminate|]. assert (z = x) by congruence. subst. inversion Ia'; subst. destruct H as [(A & _)|(_ & B & _)]; [contradiction|congruence].
  - inversion P as [? ? E1|? ? q ? ? E1 E2 P1]; subst; [destruct a; discriminate|]. inversion Ia; subst. destruct a' as [|z a']; cbn in P'.
    + inversion P' as [? ? F1|? ? q' ? ? F1 F2 P2]; subst; [|inversion P2]. assert (x' = y) by congruence. subst. destruct H' as [(A & _)|(_ & B & _)]; [contradiction|congruence].
    + inversion P' as [? ? F1|? ? q' ? ? F1 F2 P2]; subst; [destruct a'; discriminate|]. assert (z = y) by congruence. subst. assert (q' = q) by congruence. subst. inversion Ia'; subst. eapply IH; eauto.
Qed.

Lemma the_mod_inv c m x : the_mod c m = Ok x -> nth_error (c_mods c) m = Some x.
Proof. unfold the_mod. destruct (nth_error (c_mods c) m); congruence. Qed.

Lemma enabled_r_inv c x0 lv : nth_error (c_mods c) 0 = Some x0 -> forall fuel m b, enabled_r fuel c m lv = Ok b ->
  (silenced (c_mods c) m /\ b = false) \/ exists v, has_level (c_mods c) (m_level x0) m v /\ b = passes lv v.
Proof.
  intros E0. induction fuel as [|fuel IH]; intros m b E; cbn [enabled_r] in E; [discriminate|]. destruct (the_mod c m) as [x|] eqn:Ex; cbn [bind] in E; [|discriminate].
  apply the_mod_inv in Ex. rewrite disabled_bit in E. destruct (Z.testbit (m_flags x) 1) eqn:Ob.
  - left. injection E as <-. split; auto. exists [], x, (m_parent x). repeat split; auto. apply path_one. auto.
  - assert (~ off x) as No by (unfold off; congruence). unfold INHERIT in E. destruct (Z.eqb_spec (m_level x) (-1)) as [I|I].
    + destruct (m_parent x) as [q|] eqn:Eq.
      * destruct (IH q b E) as [((a & y & p' & P' & Ia & Oy) & ->)|(v & (a & y & p' & P' & Ia & Oa & H) & ->)].
        -- left. split; auto. exists (x :: a), y, p'. repeat split; auto. cbn. eapply path_up; eauto.
        -- right. exists v. split; auto. exists (x :: a), y, p'. repeat split; auto; [cbn; eapply path_up; eauto|]. cbn. auto.
      * right. unfold default_level in E. rewrite (the_mod_ok _ _ _ E0) in E. cbn [bind] in E. injection E as <-. exists (m_level x0). split; auto. exists [], x, (m_parent x).
        repeat split; [apply path_one; auto|auto|cbn; auto|]. right. auto.
    + right. injection E as <-. exists (m_level x). split; auto. exists [], x, (m_parent x). repeat split; [apply path_one; auto|auto|cbn; auto|]. left. auto.
Qed.

Lemma enabled_spec c x0 m lv fuel b : nth_error (c_mods c) 0 = Some x0 -> enabled fuel c m lv = Ok b -> (b = true <-> is_enabled c m lv).
Proof.
  intros E0 E. unfold enabled in E. unfold is_enabled. destruct (c_func2 c) as [p|] eqn:F; [|split; [congruence|intros (K & _); congruence]].
  unfold NONE in E. destruct (Z.eqb_spec lv 0) as [->|Nz].
  - injection E as <-. split; [discriminate|]. intros (_ & d & v & _ & _ & W). unfold wanted in W. lia.
  - fold (dest m) in E. destruct (enabled_r_inv c x0 lv E0 _ _ _ E) as [(Si & ->)|(v & Hv & ->)].
    + split; [discriminate|]. intros (_ & d & v & _ & Hv & _). exfalso. eapply level_excl; eauto.
    + rewrite passes_wanted. split.
      * intros W. split; [discriminate|]. exists (m_level x0), v. split; [exists x0; auto|auto].
      * intros (_ & d & w & (y & Ey & <-) & Hw & W). assert (y = x0) by congruence. subst y. rewrite (level_uniq _ _ _ _ _ Hw Hv). auto.
Qed.

Lemma logv_r_enabled_inv c m0 lv text : forall fuel m r, logv_r fuel c (Some m0) (Some m) lv text = Ok r -> exists b, enabled_r fuel c m lv = Ok b.
Proof.
  induction fuel as [|fuel IH]; intros m r E; cbn [logv_r enabled_r] in *; [discriminate|]. destruct (the_mod c m) as [x|]; cbn [bind] in *; [|discriminate].
  destruct (disabled x); [eauto|]. destruct (m_level x =? INHERIT); [|eauto]. destruct (m_parent x) as [q|]; [eauto|]. destruct (default_level c); cbn [bind] in *; [eauto|discriminate].
Qed.

Lemma goes_call c m x lv text p : nth_error (c_mods c) m = Some x -> (m_proc x = Some p \/ (m_proc x = None /\ c_func2 c = Some p)) ->
  exists o, call_proc c p m lv text = Ok o /\ goes c m x lv text o.
Proof.
  intros Ex Hp. destruct p; cbn [call_proc];
    try (eexists; split; [reflexivity|]; match goal with |- goes _ _ _ _ _ (Some (OProc ?q _ _ _)) => exists q end; split; auto; left; split; [discriminate|auto]).
  rewrite (the_mod_ok _ _ _ Ex). cbn [bind]. eexists. split; [reflexivity|]. exists PDefault. split; auto. right. destruct (c_func c) as [f|]; [right|left; auto]. split; auto. exists f. split; auto.
  rewrite hidden_bit. destruct (Z.testbit (m_flags x) 0); auto.
Qed.

Lemma logv_spec c x0 m lv text fuel r : nth_error (c_mods c) 0 = Some x0 -> logv fuel c m lv text = Ok r -> forall o, r = Some o <-> delivered c m lv text o.
Proof.
  intros E0 E o. unfold logv in E. unfold delivered. destruct (c_func2 c) as [p|] eqn:F; [|split; [congruence|intros (K & _); congruence]].
  unfold NONE in E. destruct (Z.eqb_spec lv 0) as [->|Nz].
  { injection E as <-. split; [discriminate|]. intros (_ & (d & v & _ & _ & W) & _). unfold wanted in W. lia. }
  destruct m as [k|]; cbn [dest].
  - destruct (logv_r_enabled_inv _ _ _ _ _ _ _ E) as (b & Eb).
    assert (exists x, nth_error (c_mods c) k = Some x) as (x & Ex). { destruct fuel; [discriminate|]. cbn [enabled_r] in Eb. destruct (the_mod c k) as [x|] eqn:Y; cbn [bind] in Eb; [|discriminate]. exists x. apply the_mod_inv. auto. }
    destruct (logv_r_enabled c k x p lv text Ex F fuel k b Eb) as (r' & Er & Hf & Ht). rewrite E in Er. injection Er as <-.
    destruct (enabled_r_inv c x0 lv E0 _ _ _ Eb) as [(Si & ->)|(v & Hv & ->)].
    + rewrite Hf by auto. split; [discriminate|]. intros (_ & (d & v & _ & Hv & _) & _). exfalso. eapply level_excl; eauto.
    + split.
      * intros ->. destruct (passes lv v) eqn:Pv; [|specialize (Hf eq_refl); discriminate]. split; [discriminate|]. split; [|eauto].
        exists (m_level x0), v. split; [exists x0; auto|]. split; auto. apply passes_wanted. auto.
      * intros (_ & (d & w & (y & Ey & <-) & Hw & W) & x' & Ex' & G). assert (y = x0) by congruence. subst y. assert (x' = x) by congruence. subst x'. rewrite (level_uniq _ _ _ _ _ Hv Hw) in W.
        apply passes_wanted in W. eapply goes_fun; eauto.
  - destruct fuel as [|fuel]; [discriminate|]. cbn [logv_r] in E. unfold default_level in E. rewrite (the_mod_ok _ _ _ E0) in E. cbn [bind] in E.
    destruct (passes lv (m_level x0)) eqn:Pv.
    + destruct (m_proc x0) as [q|] eqn:Eq.
      * destruct (goes_call c 0 x0 lv text q E0 (or_introl Eq)) as (r' & Er & G). rewrite E in Er. injection Er as <-. split.
        -- intros ->. split; [discriminate|]. split; [|eauto]. exists (m_level x0), (m_level x0). split; [exists x0; auto|]. split; auto. apply passes_wanted. auto.
        -- intros (_ & _ & x' & Ex' & G'). assert (x' = x0) by congruence. subst x'. eapply goes_fun; eauto.
      * destruct (goes_call c 0 x0 lv text p E0 (or_intror (conj Eq F))) as (r' & Er & G). rewrite F in E. rewrite E in Er. injection Er as <-. split.
        -- intros ->. split; [discriminate|]. split; [|eauto]. exists (m_level x0), (m_level x0). split; [exists x0; auto|]. split; auto. apply passes_wanted. auto.
        -- intros (_ & _ & x' & Ex' & G'). assert (x' = x0) by congruence. subst x'. eapply goes_fun; eauto.
    + injection E as <-. split; [discriminate|]. intros (_ & (d & w & (y & Ey & <-) & -> & W) & _). assert (y = x0) by congruence. subst y. apply passes_wanted in W. congruence.
Qed.

Lemma logv_handled c x0 m lv text fuel r : nth_error (c_mods c) 0 = Some x0 -> logv fuel c m lv text = Ok r -> handled c m lv text (match r with Some o => [ECall o] | None => [] end).
Proof.
  intros E0 E. pose proof (logv_spec c x0 m lv text fuel r E0 E) as H. destruct r as [o|].
  - left. exists o. split; auto. apply H. auto.
  - right. split; auto. intros o K. apply H in K. discriminate.
Qed.

(* ---------------- numbers ---------------- *)

Lemma dec_from_app s t : forall acc v, dec_from acc s = Some v -> dec_from acc (s ++ t) = dec_from v t.
Proof. induction s as [|c s IH]; intros acc v E; cbn [dec_from app] in *; [congruence|]. destruct ((48 <=? c) && (c <=? 57)); [auto|discriminate]. Qed.

Lemma dec_digits_spec : forall fuel v acc, 0 <= v < 10 ^ Z.of_nat fuel -> (0 < fuel)%nat -> exists s, dec_digits fuel v acc = s ++ acc /\ natural v s.
Proof.
  induction fuel as [|fuel IH]; intros v acc Hv Hf; [lia|]. cbn [dec_digits]. destruct (Z.ltb_spec v 10) as [L|L].
  - exists [48 + v]. split; auto. unfold natural. cbn [dec_from]. replace ((48 <=? 48 + v) && (48 + v <=? 57))%bool with true by lia. split; [f_equal; lia|]. split; [discriminate|left; reflexivity].
  - assert (0 <= v / 10 < 10 ^ Z.of_nat fuel) as Hq by (rewrite Nat2Z.inj_succ, Z.pow_succ_r in Hv by lia; split; [apply Z.div_pos; lia|apply Z.div_lt_upper_bound; lia]).
    destruct (IH (v / 10) ((48 + v mod 10) :: acc) Hq) as (s & E & (Hs & Ns & Hh)).
    { destruct fuel; [|lia]. change (10 ^ Z.of_nat 0) with 1 in Hq. pose proof (Z.div_le_mono 10 v 10 ltac:(lia) L). change (10 / 10) with 1 in *. lia. }
    exists (s ++ [48 + v mod 10]). rewrite E, <- app_assoc. split; [reflexivity|]. pose proof (Z.mod_pos_bound v 10 ltac:(lia)). pose proof (Z.div_mod v 10 ltac:(lia)).
    split; [|split; [destruct s; discriminate|]].
    + rewrite (dec_from_app s _ 0 (v / 10) Hs). cbn [dec_from]. replace ((48 <=? 48 + v mod 10) && (48 + v mod 10 <=? 57))%bool with true by lia. f_equal. lia.
    + right. destruct s as [|c s]; [congruence|]. cbn [app hd] in *. destruct Hh as [Hh|Hh]; [|exact Hh]. intros ->. destruct s; [|rewrite !len_cons in Hh; pose proof (len_nonneg s); lia].
      cbn in Hs. injection Hs as Hs. assert (1 <= v / 10) by (apply Z.div_le_lower_bound; lia). lia.
Qed.

Lemma fmt_int_spec v : - 2 ^ 31 <= v < 2 ^ 31 -> decimal v (fmt_int v).
Proof.
  intros H. unfold fmt_int, decimal. destruct (Z.ltb_spec v 0).
  - right. split; auto. destruct (dec_digits_spec 10 (- v) []) as (s & -> & N); [change (10 ^ Z.of_nat 10) with 10000000000; lia|lia|]. exists s. rewrite app_nil_r. auto.
  - left. split; auto. destruct (dec_digits_spec 10 v []) as (s & -> & N); [change (10 ^ Z.of_nat 10) with 10000000000; lia|lia|]. rewrite app_nil_r. auto.
Qed.

Lemma lit_chars s : lit s = chars s.
Proof. induction s; cbn; congruence. Qed.

Lemma assert_spec e f n : - 2 ^ 31 <= n < 2 ^ 31 -> assertion e f n (assert_message e f n).
Proof. intros H. exists (fmt_int n). split; [apply fmt_int_spec; auto|]. unfold assert_message. rewrite !lit_chars. reflexivity. Qed.

(* ---------------- what a step does ---------------- *)

(* a dump in progress, whether its log function runs or not *)
Record job := Job { j_id : nat; j_m : option nat; j_lv : Z; j_prefix : list Z; j_b : nat; j_off : Z; j_size : Z }.
Definition jobs (l : list frame) : list job := flat_map (fun f => match f with FDump id _ m lv p b off size => [Job id m lv p b off size] | FLog => [] end) l.

Definition prefix_text (p : option (list Z)) : list Z := match p with Some p => p | None => [] end.

(* the events of a step (newest first), the dumps in progress and their number afterwards *)
Inductive effect (d : dialect) (isp : Z -> bool) (s : state) (l : label) : list event -> list job -> nat -> Prop :=
| ef_quiet : match l with LLog _ _ _ | LAssert _ _ _ _ _ | LDump _ _ _ _ _ | LDumpBytes _ _ _ (Some _) | LGo => False | _ => True end -> effect d isp s l [] (jobs (r_stack s)) (r_ids s)
| ef_say m lv text r : (l = LLog m lv text \/ exists e f n, l = LAssert m lv e f n /\ text = assert_message e f n) -> handled (r_conf s) m lv text r ->
    effect d isp s l (r ++ [EMsg None m lv text]) (jobs (r_stack s)) (r_ids s)
| ef_begin m lv p b n on : (l = LDump m lv p b n \/ (l = LDumpBytes m lv p (Some b) /\ (on = true -> exists x, nth_error (r_mem s) b = Some (Some x) /\ n = len x))) -> (on = true <-> is_enabled (r_conf s) m lv) ->
    effect d isp s l [EDump (r_ids s) m lv p b n on] (if (on : bool) then Job (r_ids s) m lv (prefix_text p) b 0 n :: jobs (r_stack s) else jobs (r_stack s)) (S (r_ids s))
| ef_line id m lv p b off size rest data consumed buf line text r : l = LGo -> jobs (r_stack s) = Job id m lv p b off size :: rest -> size > 0 ->
    nth_error (r_mem s) b = Some (Some data) -> hexdump d isp (malloc 70) (skipn (Z.to_nat off) data) (u32 size) = Ok (consumed, buf) -> cstr buf = Ok line ->
    text = p ++ fmt_X 8 4 off [] ++ [58; 32] ++ line -> handled (r_conf s) m lv text r ->
    effect d isp s l (r ++ [EMsg (Some id) m lv text]) (Job id m lv p b (u32 (off + consumed)) (u64 (size - consumed)) :: rest) (r_ids s)
| ef_done id m lv p b off size rest : l = LGo -> jobs (r_stack s) = Job id m lv p b off size :: rest -> size <= 0 ->
    effect d isp s l [EDone id] rest (r_ids s).

Definition after (s s' : state) (l : label) (evs : list event) (js : list job) (ids : nat) : Prop :=
  r_conf s' = conf_step (r_conf s) l /\ r_mem s' = mem_step (r_mem s) l /\ jobs (r_stack s') = js /\ r_ids s' = ids /\ r_time s' = S (r_time s) /\
  r_trace s' = map (pair (r_time s)) evs ++ r_trace s.

Lemma say_effect fuel d isp s m lv text s' l x0 : nth_error (c_mods (r_conf s)) 0 = Some x0 -> say fuel s m lv text = Ok s' ->
  (l = LLog m lv text \/ exists e f n, l = LAssert m lv e f n /\ text = assert_message e f n) -> exists evs js ids, effect d isp s l evs js ids /\ after s (tick s') l evs js ids.
Proof.
  intros E0 E Hl. unfold say, message in E. destruct (logv fuel (r_conf s) m lv text) as [r|] eqn:L; cbn [bind] in E; [|discriminate].
  pose proof (logv_handled _ _ _ _ _ _ _ E0 L) as H. exists ((match r with Some o => [ECall o] | None => [] end) ++ [EMsg None m lv text]), (jobs (r_stack s)), (r_ids s).
  split; [eapply ef_say; eauto|].
  assert (conf_step (r_conf s) l = r_conf s /\ mem_step (r_mem s) l = r_mem s) as (Ec & Em) by (destruct Hl as [->|(e & f & n & -> & _)]; auto).
  unfold after. rewrite Ec, Em. destruct r as [o|]; cbn [bind] in E; [destruct (client o)|]; injection E as <-; cbn; repeat split; reflexivity.
Qed.

Lemma begin_effect fuel d isp s m lv p b n s' l x0 : nth_error (c_mods (r_conf s)) 0 = Some x0 -> begin_dump fuel s m lv p b n = Ok s' ->
  ((exists k, n = Some k /\ l = LDump m lv p b k) \/ (n = None /\ l = LDumpBytes m lv p (Some b))) -> exists evs js ids, effect d isp s l evs js ids /\ after s (tick s') l evs js ids.
Proof.
  intros E0 E Hl. unfold begin_dump in E. destruct (enabled fuel (r_conf s) m lv) as [on|] eqn:En; cbn [bind] in E; [|discriminate].
  pose proof (enabled_spec _ _ _ _ _ _ E0 En) as He.
  destruct (match n with Some n0 => Ok n0 | None => if on then do data <- the_block s b; Ok (len data) else Ok 0 end) as [k|] eqn:Ek; cbn [bind] in E; [|discriminate].
  exists [EDump (r_ids s) m lv p b k on], (if on then Job (r_ids s) m lv (prefix_text p) b 0 k :: jobs (r_stack s) else jobs (r_stack s)), (S (r_ids s)).
  assert (conf_step (r_conf s) l = r_conf s /\ mem_step (r_mem s) l = r_mem s) as (Ec & Em) by (destruct Hl as [(? & _ & ->)|(_ & ->)]; auto).
  split.
  - apply ef_begin; auto. destruct Hl as [(k' & -> & ->)|(-> & ->)]; [left; congruence|right]. split; auto. intros ->. unfold the_block in Ek.
    destruct (nth_error (r_mem s) b) as [[x|]|]; cbn [bind] in Ek; try discriminate. exists x. split; congruence.
  - unfold after. rewrite Ec, Em. destruct on; injection E as <-; cbn; repeat split; reflexivity.
Qed.

Lemma step_effect fuel d isp l s s' x0 : nth_error (c_mods (r_conf s)) 0 = Some x0 -> step fuel d isp l s = Some (Ok s') -> exists evs js ids, effect d isp s l evs js ids /\ after s s' l evs js ids.
Proof.
  intros E0. unfold step. destruct (act fuel d isp l s) as [r|] eqn:A; [|discriminate]. destruct r as [s1|]; cbn [bind]; [|discriminate]. intros K. injection K as <-.
  assert (Q : forall l1, match l1 with LLog _ _ _ | LAssert _ _ _ _ _ | LDump _ _ _ _ _ | LDumpBytes _ _ _ (Some _) | LGo => False | _ => True end ->
     (r_conf s1 = conf_step (r_conf s) l1 /\ r_mem s1 = mem_step (r_mem s) l1 /\ jobs (r_stack s1) = jobs (r_stack s) /\ r_ids s1 = r_ids s /\ r_time s1 = r_time s /\ r_trace s1 = r_trace s) ->
     exists evs js ids, effect d isp s l1 evs js ids /\ after s (tick s1) l1 evs js ids).
  { intros l1 Hl (H1 & H2 & H3 & H4 & H5 & H6). exists [], (jobs (r_stack s)), (r_ids s). split; [apply ef_quiet; auto|]. unfold after. cbn. repeat split; auto. }
  unfold act in A. destruct l as [m lv text|m lv e f n|m lv p b n|m lv p [b|]|m x|f|p|b i v|b| |].
  - destruct (in_control s); [|discriminate]. injection A as A. eapply say_effect; eauto.
  - destruct (in_control s); [|discriminate]. injection A as A. eapply say_effect; eauto. right. eauto.
  - destruct (in_control s); [|discriminate]. injection A as A. eapply begin_effect; eauto.
  - destruct (in_control s); [|discriminate]. injection A as A. eapply begin_effect; eauto.
  - destruct (in_control s); [|discriminate]. injection A as <-. apply Q; [exact Logic.I|]. repeat split.
  - destruct (in_control s); [|discriminate]. destruct (m <? length (c_mods (r_conf s)))%nat; [|discriminate]. injection A as <-. apply Q; [exact Logic.I|]. repeat split.
  - destruct (in_control s); [|discriminate]. injection A as <-. apply Q; [exact Logic.I|]. repeat split.
  - destruct (in_control s); [|discriminate]. injection A as <-. apply Q; [exact Logic.I|]. repeat split.
  - destruct (in_control s); [|discriminate]. destruct (nth_error (r_mem s) b) as [[x|]|] eqn:Eb; try discriminate. destruct ((0 <=? i) && (i <? len x)); [|discriminate]. injection A as <-.
    apply Q; [exact Logic.I|]. repeat split. cbn. rewrite Eb. reflexivity.
  - destruct (in_control s); [|discriminate]. destruct (nth_error (r_mem s) b) as [[x|]|] eqn:Eb; try discriminate. injection A as <-. apply Q; [exact Logic.I|]. repeat split.
  - destruct (r_stack s) as [|[|id [|] m lv p b off size] rest] eqn:Es; try discriminate; injection A as <-; (apply Q; [exact Logic.I|]; repeat split).
  - destruct (r_stack s) as [|[|id [|] m lv p b off size] rest] eqn:Es; try discriminate. injection A as A. unfold turn in A.
    destruct (Z.gtb_spec size 0) as [G|G].
    + unfold the_block in A. destruct (nth_error (r_mem s) b) as [[data|]|] eqn:Eb; cbn [bind] in A; try discriminate.
      destruct (hexdump d isp (malloc 70) (skipn (Z.to_nat off) data) (u32 size)) as [(consumed, buf)|] eqn:Eh; cbn [bind] in A; [|discriminate].
      destruct (cstr buf) as [line|] eqn:Ec; cbn [bind] in A; [|discriminate]. unfold message in A.
      destruct (logv fuel (r_conf s) m lv _) as [r|] eqn:L; cbn [bind] in A; [|discriminate]. pose proof (logv_handled _ _ _ _ _ _ _ E0 L) as H.
      do 3 eexists. split.
      * eapply (ef_line d isp s LGo id m lv p b off size (jobs rest)); eauto; [rewrite Es; reflexivity|lia].
      * unfold after. destruct r as [o|]; cbn [bind] in A; injection A as <-; cbn; repeat split; reflexivity.
    + injection A as <-. exists [EDone id], (jobs rest), (r_ids s). split.
      * eapply (ef_done d isp s LGo id m lv p b off size (jobs rest)); eauto. rewrite Es. reflexivity.
      * unfold after. cbn. repeat split; reflexivity.
Qed.
