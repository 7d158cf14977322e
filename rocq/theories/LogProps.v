(* The properties C62 to C68 and C83 to C85 *)
From Coq Require Import String Ascii List.
From Verif Require Import Base HexModel HexSpec HexProofs ParseModel ParseSpec ParseProps LogModel LogSpec LogProofs LogProofs2 LogProofs3.
Import ListNotations.
Open Scope Z_scope.

(* A configuration for the examples: the default module, "a", its child "b" and a child "c" of "b" *)
Definition x_mods : list module :=
  [LogMod None None None 3 0; LogMod (Some (chars "a")) None None 4 0; LogMod (Some (chars "b")) (Some 1%nat) None (-1) 0; LogMod (Some (chars "c")) (Some 2%nat) (Some (PClient 7)) (-1) 0].
Definition x_conf : conf := Conf x_mods (Some FStdout) (Some PDefault).

(* ---------------- C62 ---------------- *)

(* Missing: NULL if the default module is disabled or inherits its level; a message which is enabled
   goes nowhere if gutil_log_func is NULL (see goes). *)
Theorem C62_predicts_partial c m x lv text fuel b : nth_error (c_mods c) (dest m) = Some x -> plain c m -> enabled fuel c m lv = Ok b ->
  exists o, logv fuel c m lv text = Ok o /\ (b = false -> o = None) /\ (b = true -> goes c (dest m) x lv text o).
Proof. apply logv_enabled. Qed.
Print Assumptions C62_predicts_partial.

Example C62_example : enabled 5 x_conf (Some 3%nat) 4 = Ok true /\ logv 5 x_conf (Some 3%nat) 4 (chars "hi") = Ok (Some (OProc (PClient 7) 3 4 (chars "hi"))) /\
  enabled 5 x_conf (Some 3%nat) 5 = Ok false /\ logv 5 x_conf (Some 3%nat) 5 (chars "hi") = Ok None /\
  logv 5 x_conf (Some 2%nat) 4 (chars "hi") = Ok (Some (OFunc FStdout (Some (chars "b")) 4 (chars "hi"))) /\ plain x_conf None.
Proof. repeat split; try reflexivity; intros; cbn in *; match goal with H : Some _ = Some _ |- _ => injection H as <- end; [intros X; discriminate X|left; discriminate]. Qed.

(* The default module is disabled: nothing is enabled for it, but messages without a module are still
   logged *)
Theorem C62_refuted : exists c lv text o, (forall fuel, (1 <= fuel)%nat -> enabled fuel c None lv = Ok false) /\ (forall fuel, (1 <= fuel)%nat -> logv fuel c None lv text = Ok (Some o)).
Proof.
  exists (Conf [LogMod (Some (chars "a")) None None 3 2] (Some FStdout) (Some PDefault)), 3, (chars "hi"), (OFunc FStdout (Some (chars "a")) 3 (chars "hi")).
  split; intros [|fuel] H; try lia; reflexivity.
Qed.
Print Assumptions C62_refuted.

(* Without gutil_log_func messages are enabled but go nowhere *)
Theorem C62_nowhere_refuted : exists c lv text, (forall fuel, (1 <= fuel)%nat -> enabled fuel c (Some 0%nat) lv = Ok true) /\ (forall fuel, (1 <= fuel)%nat -> logv fuel c (Some 0%nat) lv text = Ok None).
Proof. exists (Conf [LogMod (Some (chars "a")) None None 3 0] None (Some PDefault)), 3, (chars "hi"). split; intros [|fuel] H; try lia; reflexivity. Qed.
Print Assumptions C62_nowhere_refuted.

(* ---------------- C63 ---------------- *)

Lemma path_head mods m l p : path mods m l p -> exists x, nth_error mods m = Some x.
Proof. intros H. inversion H; eauto. Qed.
Lemma enabled_eventually c m lv p b : c_func2 c = Some p -> (lv = 0 -> b = false) -> eventually (fun n => enabled_r n c m lv) b -> eventually (fun n => enabled n c (Some m) lv) b.
Proof. intros F Z0 (n & H). exists n. intros fuel Hf. unfold enabled, NONE. rewrite F. destruct (Z.eqb_spec lv 0) as [E|E]; [rewrite Z0; auto|auto]. Qed.
Lemma logv_none c m x lv text : nth_error (c_mods c) m = Some x -> eventually (fun n => enabled n c (Some m) lv) false -> eventually (fun n => logv n c (Some m) lv text) None.
Proof.
  intros Ex (n & H). exists n. intros fuel Hf. destruct (logv_enabled c (Some m) x lv text fuel false) as (o & E & N & _); auto; [intros X; discriminate|]. rewrite E, N; auto.
Qed.
Lemma goes_fun c m x lv text o1 o2 : goes c m x lv text o1 -> goes c m x lv text o2 -> o1 = o2.
Proof.
  intros (p & Hp & H) (q & Hq & I). assert (q = p) as -> by (destruct Hp as [Hp|(Hp & Hp')], Hq as [Hq|(Hq & Hq')]; congruence).
  destruct H as [(H1 & H2)|[(H1 & H2 & H3)|(H1 & f & H2 & H3)]], I as [(I1 & I2)|[(I1 & I2 & I3)|(I1 & g & I2 & I3)]]; try congruence.
  assert (g = f) as -> by congruence. destruct H3 as [(H3 & H4)|(H3 & H4)], I3 as [(I3 & I4)|(I3 & I4)]; congruence.
Qed.
Lemma logv_some c m x lv text : nth_error (c_mods c) m = Some x -> eventually (fun n => enabled n c (Some m) lv) true -> exists o, goes c m x lv text o /\ eventually (fun n => logv n c (Some m) lv text) o.
Proof.
  intros Ex (n & H). destruct (logv_enabled c (Some m) x lv text n true) as (o & E & _ & G); auto; [intros X; discriminate|]. exists o. split; [auto|]. exists n. intros fuel Hf.
  destruct (logv_enabled c (Some m) x lv text fuel true) as (o' & E' & _ & G'); auto; [intros X; discriminate|]. rewrite E'. f_equal. eapply goes_fun; eauto.
Qed.

(* Nothing is logged if the module or one it inherits from is disabled *)
Theorem C63_silenced c x0 m lv text : nth_error (c_mods c) 0 = Some x0 -> silenced (c_mods c) m ->
  eventually (fun n => enabled n c (Some m) lv) false /\ eventually (fun n => logv n c (Some m) lv text) None.
Proof.
  intros E0 Hs. assert (Ev : eventually (fun n => enabled n c (Some m) lv) false).
  { destruct (c_func2 c) as [p|] eqn:F; [|exists 0%nat; intros; unfold enabled; rewrite F; reflexivity].
    eapply enabled_eventually; eauto. eapply enabled_silenced; eauto. unfold default_level. rewrite (the_mod_ok _ _ _ E0). reflexivity. }
  split; auto. pose proof Hs as (a & x & p & P & _). apply path_head in P. destruct P as (y & Ey). eapply logv_none; eauto.
Qed.
Print Assumptions C63_silenced.

(* Otherwise the level decides *)
Theorem C63_level c x0 p m v lv text : nth_error (c_mods c) 0 = Some x0 -> c_func2 c = Some p -> has_level (c_mods c) (m_level x0) m v ->
  (wanted lv v -> eventually (fun n => enabled n c (Some m) lv) true /\ exists x o, nth_error (c_mods c) m = Some x /\ goes c m x lv text o /\ eventually (fun n => logv n c (Some m) lv text) o) /\
  (~ wanted lv v -> eventually (fun n => enabled n c (Some m) lv) false /\ eventually (fun n => logv n c (Some m) lv text) None).
Proof.
  intros E0 F Hl. assert (Dl : default_level c = Ok (m_level x0)) by (unfold default_level; rewrite (the_mod_ok _ _ _ E0); reflexivity).
  assert (Ev : eventually (fun n => enabled n c (Some m) lv) (passes lv v)).
  { eapply enabled_eventually; eauto; [|eapply enabled_level; eauto]. intros ->. reflexivity. }
  pose proof Hl as (a & x & q & P & _). apply path_head in P. destruct P as (y & Ey). split; intros W.
  - assert (Pt : passes lv v = true) by (apply passes_wanted; auto). rewrite Pt in Ev. split; auto. destruct (logv_some c m y lv text Ey Ev) as (o & G & E). eauto.
  - assert (Pt : passes lv v = false) by (destruct (passes lv v) eqn:Pt; auto; apply passes_wanted in Pt; contradiction). rewrite Pt in Ev. split; auto. eapply logv_none; eauto.
Qed.
Print Assumptions C63_level.

(* One of the two is the case, and not both, unless the modules inherit from one another in a circle *)
Theorem C63_total mods d m l : path mods m l None -> (silenced mods m /\ ~ exists v, has_level mods d m v) \/ (~ silenced mods m /\ exists v, has_level mods d m v /\ forall w, has_level mods d m w -> w = v).
Proof.
  assert (Excl : forall mods d m v, silenced mods m -> has_level mods d m v -> False).
  { clear. intros mods d m v (a & x & p & P & Ia & Ox) (a' & x' & p' & P' & Ia' & O' & H). revert m p p' a' x' P P' Ia' O' H. induction a as [|y a IH]; intros m p p' a' x' P P' Ia' O' H.
    - assert (Hd : nth_error mods m = Some x) by (inversion P; subst; auto). destruct a' as [|z a']; cbn in P'.
      + assert (x' = x) by (inversion P'; subst; congruence). subst. cbn in O'. inversion O'; auto.
      + assert (z = x) by (inversion P'; subst; congruence). subst. cbn in O'. inversion O'; auto.
    - inversion Ia as [|? ? Iy Ia1]; subst. cbn in P. inversion P as [? ? E1 E2|? ? q ? ? E1 E2 P1]; subst; [destruct a; discriminate|]. destruct a' as [|z a']; cbn in P'.
      + inversion P' as [? ? F1|? ? q' ? ? F1 F2 P2]; subst; [|inversion P2]. assert (x' = y) by congruence. subst. destruct H as [(N & _)|(_ & N & _)]; [contradiction|congruence].
      + inversion P' as [? ? F1|? ? q' ? ? F1 F2 P2]; subst; [destruct a'; discriminate|]. assert (z = y) by congruence. subst z. assert (q' = q) by congruence. subst q'.
        inversion Ia'; subst. cbn in O'. inversion O'; subst. apply (IH Ia1 q p p' a' x'); auto. }
  assert (Uniq : forall mods d m v w, has_level mods d m v -> has_level mods d m w -> w = v).
  { clear. intros mods d m v w (a & x & p & P & Ia & _ & H) (a' & x' & p' & P' & Ia' & _ & H'). revert m p p' a' x' P H P' Ia' H'. induction a as [|y a IH]; intros m p p' a' x' P H P' Ia' H'; cbn in P.
    - inversion P as [? ? E1|? ? q ? ? E1 E2 P1]; subst; [|inversion P1]. destruct a' as [|z a']; cbn in P'.
      + inversion P' as [? ? F1|? ? q ? ? F1 F2 P1]; subst; [|inversion P1]. assert (x' = x) by congruence. subst. destruct H as [(A & ->)|(A & B & ->)], H' as [(A' & ->)|(A' & B' & ->)]; auto; contradiction.
      + inversion P' as [? ? F1|? ? q ? ? F1 F2 P1]; subst; [destruct a'; discriminate|]. assert (z = x) by congruence. subst. inversion Ia'; subst. destruct H as [(A & _)|(_ & B & _)]; [contradiction|congruence].
    - inversion P as [? ? E1|? ? q ? ? E1 E2 P1]; subst; [destruct a; discriminate|]. inversion Ia; subst. destruct a' as [|z a']; cbn in P'.
      + inversion P' as [? ? F1|? ? q' ? ? F1 F2 P2]; subst; [|inversion P2]. assert (x' = y) by congruence. subst. destruct H' as [(A & _)|(_ & B & _)]; [contradiction|congruence].
      + inversion P' as [? ? F1|? ? q' ? ? F1 F2 P2]; subst; [destruct a'; discriminate|]. assert (z = y) by congruence. subst. assert (q' = q) by congruence. subst. inversion Ia'; subst. eapply IH; eauto. }
  intros P. destruct (level_total mods d m l P) as [H|(v & H)].
  - left. split; auto. intros (v & Hv). eauto.
  - right. split; [intros X; eauto|]. exists v. split; auto. intros w Hw. eauto.
Qed.
Print Assumptions C63_total.

Example C63_example : has_level x_mods 3 3 4 /\ ~ wanted 5 4 /\ wanted (-2) 4 /\ path x_mods 3 [nth 3 x_mods (nth 0 x_mods (LogMod None None None 0 0)); nth 2 x_mods (nth 0 x_mods (LogMod None None None 0 0)); nth 1 x_mods (nth 0 x_mods (LogMod None None None 0 0))] None /\
  silenced [LogMod None None None 3 0; LogMod None None None 4 2; LogMod None (Some 1%nat) None (-1) 0] 2.
Proof.
  split; [|split; [|split; [|split]]].
  - exists (firstn 2 (rev x_mods)), (LogMod (Some (chars "a")) None None 4 0), None. cbn [x_mods rev app firstn]. split; [|split; [|split]].
    + eapply path_up; [reflexivity|reflexivity|]. eapply path_up; [reflexivity|reflexivity|]. apply (path_one x_mods 1 (LogMod (Some (chars "a")) None None 4 0)). reflexivity.
    + repeat constructor.
    + repeat constructor; intros X; discriminate X.
    + left. split; [intros X; discriminate X|reflexivity].
  - unfold wanted. lia.
  - unfold wanted. lia.
  - eapply path_up; [reflexivity|reflexivity|]. eapply path_up; [reflexivity|reflexivity|]. apply (path_one x_mods 1 (LogMod (Some (chars "a")) None None 4 0)). reflexivity.
  - exists [LogMod None (Some 1%nat) None (-1) 0], (LogMod None None None 4 2), None. split; [|split; [repeat constructor|reflexivity]]. eapply path_up; [reflexivity|reflexivity|]. apply (path_one [LogMod None None None 3 0; LogMod None None None 4 2; LogMod None (Some 1%nat) None (-1) 0] 1 (LogMod None None None 4 2)). reflexivity.
Qed.

(* modules which inherit from one another in a circle: neither function returns *)
Example C63_example_circle : let c := Conf [LogMod None None None 3 0; LogMod None (Some 2%nat) None (-1) 0; LogMod None (Some 1%nat) None (-1) 0] (Some FStdout) (Some PDefault) in
  never (fun n => enabled n c (Some 1%nat) 3) /\ never (fun n => logv n c (Some 1%nat) 3 (chars "hi")).
Proof.
  intros c. split; intros fuel.
  - unfold enabled. cbn [c c_func2]. change (3 =? NONE) with false. cbv iota. assert (H : forall n, enabled_r n c 1 3 = Fail NoFuel /\ enabled_r n c 2 3 = Fail NoFuel) by (induction n as [|n (I1 & I2)]; [split; reflexivity|]; split; [exact I2|exact I1]). apply H.
  - unfold logv. cbn [c c_func2]. change (3 =? NONE) with false. cbv iota.
    assert (H : forall n, logv_r n c (Some 1%nat) (Some 1%nat) 3 (chars "hi") = Fail NoFuel /\ logv_r n c (Some 1%nat) (Some 2%nat) 3 (chars "hi") = Fail NoFuel) by (induction n as [|n (I1 & I2)]; [split; reflexivity|]; split; [exact I2|exact I1]). apply H.
Qed.

(* ---------------- C64 ---------------- *)

(* Missing in the first three: modules without a name, see C64_refuted *)
Theorem C64_default_partial c x0 opt v modules count e : nth_error (c_mods c) 0 = Some x0 -> no_nul opt -> ~ In 58 opt -> names_level opt v ->
  exists c', parse_option c opt modules count e = Ok (true, c', false) /\ only_level c c' 0 v.
Proof.
  intros E0 Nn Nc V. unfold parse_option. rewrite (proj2 (split_at_none 58 opt) Nc). rewrite (proj1 (parse_level_spec opt e Nn) v V).
  assert (Hv : 0 <= v) by (destruct V as [(H & _)|(_ & H & _)]; lia). destruct (Z.geb_spec v 0); [|lia]. destruct (set_level_spec c 0 x0 v E0) as (c' & -> & O). cbn [bind]. eauto.
Qed.
Print Assumptions C64_default_partial.

Theorem C64_module_partial c name lv v modules count m e : no_nul name -> no_nul lv -> ~ In 58 name -> names_level lv v ->
  Forall (fun m => exists n, name_of c m = Some n /\ no_nul n) modules -> count <= len modules -> first_named c (firstn (Z.to_nat count) modules) name m ->
  exists c', parse_option c (name ++ chars ":" ++ lv) modules count e = Ok (true, c', false) /\ only_level c c' m v.
Proof.
  intros Nn Nl Nc V Hm Hc Fn. unfold parse_option. change (name ++ chars ":" ++ lv) with (name ++ 58 :: lv). rewrite split_at_some by auto. rewrite (proj1 (parse_level_spec lv e Nl) v V).
  assert (Hv : 0 <= v) by (destruct V as [(H & _)|(_ & H & _)]; lia). destruct (Z.geb_spec v 0); [|lia].
  destruct (find_module_spec c name modules Nn Hm (Z.to_nat count) []) as (r & E & H'); [unfold len in Hc; lia|]. cbn [app] in E. change (len (@nil nat)) with 0 in E. rewrite E. cbn [bind].
  destruct Fn as (a & b & n & Em & En & Es & Hb). destruct r as [r|].
  - assert (r = m) as ->.
    { destruct H' as (a' & b' & n' & Em' & En' & Es' & Hb'). rewrite Em in Em'. clear - Em' En Es Hb En' Es' Hb'. revert a' Em' Hb'. induction a as [|z a IH]; intros [|z' a'] Em' Hb'; cbn in Em'; injection Em'.
      - auto.
      - intros _ <-. exfalso. apply (Hb' m n); cbn; auto.
      - intros _ ->. exfalso. apply (Hb r n'); cbn; auto.
      - intros E ->. apply (IH (fun k kn I => Hb k kn (or_intror I)) a' E (fun k kn I => Hb' k kn (or_intror I))). }
    assert (Ex : exists x, nth_error (c_mods c) m = Some x) by (unfold name_of in En; destruct (nth_error (c_mods c) m); [eauto|discriminate]). destruct Ex as (x & Ex).
    destruct (set_level_spec c m x v Ex) as (c' & -> & O). cbn [bind]. eauto.
  - exfalso. apply (H' m n); auto. rewrite Em. apply in_app_iff. cbn. auto.
Qed.
Print Assumptions C64_module_partial.

(* Everything else is rejected, and then nothing changes *)
Theorem C64_rejected_partial c opt modules count e : no_nul opt -> Forall (fun m => exists n, name_of c m = Some n /\ no_nul n) modules -> count <= len modules ->
  (forall v, ~ In 58 opt -> ~ names_level opt v) ->
  (forall name lv v m, opt = name ++ chars ":" ++ lv -> ~ In 58 name -> names_level lv v -> ~ first_named c (firstn (Z.to_nat count) modules) name m) ->
  parse_option c opt modules count e = Ok (false, c, e).
Proof.
  intros Nn Hm Hc H1 H2. unfold parse_option. destruct (split_at 58 opt) as [(name & lv)|] eqn:Es.
  - apply split_at_inv in Es. destruct Es as (-> & Nc). unfold no_nul in Nn. apply Forall_app in Nn. destruct Nn as (N1 & N2). inversion N2 as [|? ? _ N3]; subst. destruct (parse_level_spec lv e N3) as (P1 & P2).
    assert (D : (exists v, names_level lv v) \/ forall v, ~ names_level lv v).
    { destruct (parse_level lv true) as (l & b) eqn:El. destruct b.
      - right. intros v V. rewrite (proj1 (parse_level_spec lv true N3) v V) in El. congruence.
      - left. assert (Hl : 0 <= l <= 5 \/ l < 0 \/ 5 < l) by lia. assert (X : (forall v, ~ names_level lv v) -> False). { intros X. rewrite (proj2 (parse_level_spec lv true N3) X) in El. congruence. }
        assert (Dec : forall n, (exists v, 0 <= v < Z.of_nat n /\ names_level lv v) \/ forall v, 0 <= v < Z.of_nat n -> ~ names_level lv v).
        { induction n as [|n [(v & Hv & V)|IH]]; [right; intros; lia|left; exists v; split; [lia|auto]|].
          assert (Dn : names_level lv (Z.of_nat n) \/ ~ names_level lv (Z.of_nat n)).
          { unfold names_level. destruct (list_eq_dec Z.eq_dec lv [48 + Z.of_nat n]) as [E1|E1].
            - destruct (Z_le_dec (Z.of_nat n) 5); [left; left; split; [lia|auto]|]. right. intros [(A & _)|(_ & _ & r & A)]; [lia|]. assert (Hn : (length words <= Z.to_nat (Z.of_nat n))%nat) by (cbn; lia). apply nth_error_None in Hn. congruence.
            - destruct lv as [|c0 t]; [right; intros [(_ & A)|(A & _)]; congruence|]. destruct (nth_error words (Z.to_nat (Z.of_nat n))) as [w|] eqn:Ew; [|right; intros [(_ & A)|(_ & _ & r & A)]; congruence].
              destruct (list_eq_dec Z.eq_dec (firstn (length (c0 :: t)) w) (c0 :: t)) as [E2|E2].
              + left. right. split; [discriminate|]. split; [lia|]. exists (skipn (length (c0 :: t)) w). f_equal. rewrite <- E2 at 1. symmetry. apply firstn_skipn.
              + right. intros [(_ & A)|(_ & _ & r & A)]; [congruence|]. injection A as ->. apply E2. change (firstn (length (c0 :: t)) ((c0 :: t) ++ r) = c0 :: t). rewrite firstn_app, Nat.sub_diag, firstn_all. cbn [firstn]. apply app_nil_r. }
          destruct Dn as [Dn|Dn]; [left; exists (Z.of_nat n); split; [lia|auto]|]. right. intros v Hv V. destruct (Z.eq_dec v (Z.of_nat n)) as [->|]; [auto|]. apply (IH v); [lia|auto]. }
        destruct (Dec 6%nat) as [(v & _ & V)|V]; [eauto|]. exfalso. apply X. intros v Vv. apply (V v); auto. destruct Vv as [(A & _)|(_ & A & r & B)]; [lia|]. split; auto.
        assert (Y : (Z.to_nat v < length words)%nat) by (apply nth_error_Some; congruence). cbn in Y. lia. }
    destruct D as [(v & V)|V].
    + rewrite (P1 v V). assert (Hv : 0 <= v) by (destruct V as [(H & _)|(_ & H & _)]; lia). destruct (Z.geb_spec v 0); [|lia].
      destruct (find_module_spec c name modules N1 Hm (Z.to_nat count) []) as (r & E & H'); [unfold len in Hc; lia|]. cbn [app] in E. change (len (@nil nat)) with 0 in E. rewrite E. cbn [bind].
      destruct r as [r|]; [|reflexivity]. exfalso. exact (H2 name lv v r eq_refl Nc V H').
    + rewrite (P2 V). reflexivity.
  - apply split_at_none in Es. rewrite (proj2 (parse_level_spec opt e Nn)); [reflexivity|]. intros v. apply H1. auto.
Qed.
Print Assumptions C64_rejected_partial.

(* a text means one level at most *)
Theorem C64_unambiguous s v w : names_level s v -> names_level s w -> v = w.
Proof. apply names_level_unique. Qed.
Print Assumptions C64_unambiguous.

Example C64_example : names_level (chars "verb") 5 /\ names_level (chars "2") 2 /\ first_named x_conf [1; 2; 3]%nat (chars "B") 2 /\
  (exists c', parse_option x_conf (chars "B:verb") [1; 2; 3]%nat 3 true = Ok (true, c', false) /\ map m_level (c_mods c') = [3; 4; 5; -1]) /\
  parse_option x_conf (chars "x:verb") [1; 2; 3]%nat 3 true = Ok (false, x_conf, true) /\ parse_option x_conf (chars "ERROR") [1; 2; 3]%nat 3 true = Ok (false, x_conf, true).
Proof.
  split; [|split; [|split; [|split; [|split]]]].
  - right. split; [discriminate|]. split; [lia|]. exists (chars "ose"). reflexivity.
  - left. split; [lia|reflexivity].
  - exists [1%nat], [3%nat], (chars "b"). repeat split. intros k kn [<-|[]] E. injection E as <-. intros X. discriminate X.
  - eexists. split; vm_compute; reflexivity.
  - vm_compute. reflexivity.
  - vm_compute. reflexivity.
Qed.

(* A module without a name, like the default module, must not be among the modules *)
Theorem C64_refuted : exists c opt modules, parse_option c opt modules (len modules) true = Fail NullDeref.
Proof. exists x_conf, (chars "a:info"), [0; 1]%nat. vm_compute. reflexivity. Qed.
Print Assumptions C64_refuted.

(* ---------------- C65 ---------------- *)

Lemma known_cases n f : In (n, f) known -> (n = t_stdout /\ f = FStdout) \/ (n = t_stderr /\ f = FStderr) \/ (n = t_glib /\ f = FGlib) \/ (n = t_syslog /\ f = FSyslog).
Proof. intros [H|[H|[H|[H|[]]]]]; injection H as <- <-; auto. Qed.
Lemma known_no_nul n f : In (n, f) known -> no_nul n.
Proof. intros H. apply known_cases in H. destruct H as [(-> & _)|[(-> & _)|[(-> & _)|(-> & _)]]]; repeat constructor; discriminate. Qed.
Lemma default_name_spec c x0 name : nth_error (c_mods c) 0 = Some x0 -> exists c', set_default_name c name = Ok c' /\ forall f, only_type c (set_func c' f) f name /\ (c_func c' = c_func c).
Proof.
  intros E. unfold set_default_name. destruct name as [n|].
  - rewrite (the_mod_ok _ _ _ E). cbn [bind]. eexists. split; [reflexivity|]. intros f. split; [|reflexivity]. split; [reflexivity|]. split; [reflexivity|]. cbn [c_mods set_mods set_func]. split; [intros k Hk; apply nth_error_upd_ne; auto|].
    eexists x0, _. split; auto. split; [apply nth_error_upd_eq; apply nth_error_Some; congruence|]. cbn. repeat split.
  - exists c. split; [reflexivity|]. intros f. split; [|reflexivity]. split; [reflexivity|]. split; [reflexivity|]. split; [reflexivity|]. exists x0, x0. repeat split; auto.
Qed.
Lemma set_type_shape c x0 t name : nth_error (c_mods c) 0 = Some x0 -> no_nul t ->
  exists b c' ev, set_type c (Some t) name = Ok (b, c', ev) /\
    ((exists n f, In (n, f) known /\ same_name t n /\ b = true /\ only_type c c' (Some f) name /\ ev = (if is_syslog (Some f) then if is_syslog (c_func c) then [] else [Openlog] else if is_syslog (c_func c) then [Closelog] else [])) \/
     ((forall n f, In (n, f) known -> ~ same_name t n) /\ b = false /\ only_type c c' (c_func c) name)).
Proof.
  intros E Nt. destruct (default_name_spec c x0 name E) as (c1 & E1 & H1). unfold set_type. cbn [g_strcasecmp].
  assert (C : forall w, no_nul w -> (casecmp t w =? 0) = true -> same_name t w) by (intros w Nw X; apply Z.eqb_eq in X; apply casecmp_same; auto).
  assert (C' : forall w, no_nul w -> (casecmp t w =? 0) = false -> ~ same_name t w) by (intros w Nw X Y; apply casecmp_same in Y; auto; apply Z.eqb_neq in X; auto).
  assert (K1 : no_nul t_syslog) by (repeat constructor; discriminate). assert (K2 : no_nul t_stdout) by (repeat constructor; discriminate). assert (K3 : no_nul t_stderr) by (repeat constructor; discriminate). assert (K4 : no_nul t_glib) by (repeat constructor; discriminate).
  rewrite E1. cbn [bind].
  destruct (casecmp t t_syslog =? 0) eqn:S1; [eexists _, _, _; split; [reflexivity|]; left; exists t_syslog, FSyslog; split; [cbn; auto|]; split; [auto|]; split; [auto|]; split; [apply H1|reflexivity]|].
  destruct (casecmp t t_stdout =? 0) eqn:S2; [eexists _, _, _; split; [reflexivity|]; left; exists t_stdout, FStdout; split; [cbn; auto|]; split; [auto|]; split; [auto|]; split; [apply H1|reflexivity]|].
  destruct (casecmp t t_stderr =? 0) eqn:S3; [eexists _, _, _; split; [reflexivity|]; left; exists t_stderr, FStderr; split; [cbn; auto|]; split; [auto|]; split; [auto|]; split; [apply H1|reflexivity]|].
  destruct (casecmp t t_glib =? 0) eqn:S4; [eexists _, _, _; split; [reflexivity|]; left; exists t_glib, FGlib; split; [cbn; auto|]; split; [auto|]; split; [auto|]; split; [apply H1|reflexivity]|].
  eexists _, _, _. split; [reflexivity|]. right. split; [|split; [auto|]].
  - intros n f I. apply known_cases in I. destruct I as [(-> & _)|[(-> & _)|[(-> & _)|(-> & _)]]]; auto.
  - destruct (H1 (c_func c)) as (O & F). replace c1 with (set_func c1 (c_func c)); [exact O|]. rewrite <- F. destruct c1; reflexivity.
Qed.
Lemma known_distinct t n f n' f' : In (n, f) known -> In (n', f') known -> same_name t n -> same_name t n' -> n = n' /\ f = f'.
Proof.
  unfold same_name. intros H H' S S'. rewrite S in S'. apply known_cases in H. apply known_cases in H'.
  destruct H as [(-> & ->)|[(-> & ->)|[(-> & ->)|(-> & ->)]]], H' as [(-> & ->)|[(-> & ->)|[(-> & ->)|(-> & ->)]]]; auto; vm_compute in S'; discriminate.
Qed.
Lemma type_of_func c n f : In (n, f) known -> c_func c = Some f -> get_type c = n.
Proof. intros H E. unfold get_type. rewrite E. apply known_cases in H. destruct H as [(-> & ->)|[(-> & ->)|[(-> & ->)|(-> & ->)]]]; reflexivity. Qed.

(* A known type is accepted; nothing but the type and the name of the default module changes *)
Theorem C65_known c x0 t n f name : nth_error (c_mods c) 0 = Some x0 -> no_nul t -> In (n, f) known -> same_name t n ->
  exists c' ev, set_type c (Some t) name = Ok (true, c', ev) /\ only_type c c' (Some f) name /\ get_type c' = n.
Proof.
  intros E Nt K S. destruct (set_type_shape c x0 t name E Nt) as (b & c' & ev & Es & [(n' & f' & K' & S' & -> & O & _)|(N & _)]).
  - destruct (known_distinct _ _ _ _ _ K K' S S') as (<- & <-). exists c', ev. split; auto. split; auto. apply (type_of_func _ _ _ K). apply O.
  - exfalso. eapply N; eauto.
Qed.
Print Assumptions C65_known.

(* Any other type is not, and the type stays. Missing: the name of the default module changes all the
   same, and syslog is closed. *)
Theorem C65_unknown_partial c x0 t name : nth_error (c_mods c) 0 = Some x0 -> no_nul t -> (forall n f, In (n, f) known -> ~ same_name t n) ->
  exists c' ev, set_type c (Some t) name = Ok (false, c', ev) /\ only_type c c' (c_func c) name /\ get_type c' = get_type c.
Proof.
  intros E Nt K. destruct (set_type_shape c x0 t name E Nt) as (b & c' & ev & Es & [(n' & f' & K' & S' & _)|(_ & -> & O)]).
  - exfalso. eapply K; eauto.
  - exists c', ev. split; auto. split; auto. unfold get_type. destruct O as (-> & _). reflexivity.
Qed.
Print Assumptions C65_unknown_partial.

Definition x_syslog : conf := Conf x_mods (Some FSyslog) (Some PDefault).
(* With a function which is none of the four, the type is "custom" *)
Theorem C65_custom c : (forall n f, In (n, f) known -> c_func c <> Some f) -> get_type c = chars "custom".
Proof.
  intros H. unfold get_type. destruct (c_func c) as [f|] eqn:E; [|reflexivity]. assert (K : forall n f', In (n, f') known -> f <> f') by (intros n f' I ->; exact (H n f' I eq_refl)).
  destruct f; try reflexivity; exfalso; (eapply K; [|reflexivity]); unfold known; cbn; eauto.
Qed.
Print Assumptions C65_custom.
Example C65_example_custom : let c := set_func x_syslog (Some (FClient 7)) in (forall n f, In (n, f) known -> c_func c <> Some f) /\ get_type c = chars "custom".
Proof. split; [|reflexivity]. intros n f K. apply known_cases in K. destruct K as [(_ & ->)|[(_ & ->)|[(_ & ->)|(_ & ->)]]]; discriminate. Qed.
Example C65_example : same_name (chars "StdErr") (chars "stderr") /\ (exists c', set_type x_syslog (Some (chars "StdErr")) None = Ok (true, c', [Closelog]) /\ get_type c' = chars "stderr") /\
  (forall n f, In (n, f) known -> ~ same_name (chars "syslo") n).
Proof. split; [reflexivity|]. split; [eexists; split; vm_compute; reflexivity|]. intros n f K. apply known_cases in K. destruct K as [(-> & _)|[(-> & _)|[(-> & _)|(-> & _)]]]; intros X; vm_compute in X; discriminate. Qed.

(* FALSE is returned, but syslog is closed and the default name has changed *)
Theorem C65_refuted : exists c t name c' x x', (forall n f, In (n, f) known -> ~ same_name t n) /\ set_type c (Some t) (Some name) = Ok (false, c', [Closelog]) /\
  get_type c = chars "syslog" /\ get_type c' = chars "syslog" /\ nth_error (c_mods c) 0 = Some x /\ nth_error (c_mods c') 0 = Some x' /\ m_name x' <> m_name x.
Proof.
  exists x_syslog, (chars "bogus"), (chars "me"). eexists. eexists. eexists. split; [|split; [vm_compute; reflexivity|split; [reflexivity|split; [reflexivity|split; [reflexivity|split; [reflexivity|discriminate]]]]]].
  intros n f K. apply known_cases in K. destruct K as [(-> & _)|[(-> & _)|[(-> & _)|(-> & _)]]]; intros X; vm_compute in X; discriminate.
Qed.
Print Assumptions C65_refuted.

(* NULL is not a type but selects syslog (g_ascii_strcasecmp complains and returns 0) *)
Theorem C65_null_refuted : exists c c' ev, get_type c = chars "stdout" /\ set_type c None None = Ok (true, c', ev) /\ get_type c' = chars "syslog".
Proof. exists x_conf. eexists. eexists. split; [reflexivity|]. split; vm_compute; reflexivity. Qed.
Print Assumptions C65_null_refuted.

(* syslog is opened and closed in turns, and it is open if and only if it is used. Missing: unknown
   types. *)
Theorem C65_syslog_partial c x0 l c' ev : nth_error (c_mods c) 0 = Some x0 -> get_type c <> chars "syslog" -> type_calls c l c' ev ->
  Forall (fun a => exists t n f, fst a = Some t /\ no_nul t /\ In (n, f) known /\ same_name t n) l ->
  exists b, sys_open false ev = Some b /\ (b = true <-> get_type c' = chars "syslog").
Proof.
  assert (G : forall c l c' ev, type_calls c l c' ev -> forall x0, nth_error (c_mods c) 0 = Some x0 -> Forall (fun a => exists t n f, fst a = Some t /\ no_nul t /\ In (n, f) known /\ same_name t n) l -> sys_open (is_syslog (c_func c)) ev = Some (is_syslog (c_func c'))).
  { clear. induction 1 as [c|c t n b c1 ev l c2 ev2 E T IH]; intros x0 E0 F; [reflexivity|]. inversion F as [|? ? (t' & n' & f' & Et & Nt & K & S) F']; subst. cbn in Et. subst t.
    destruct (set_type_shape c x0 t' n E0 Nt) as (b' & c1' & ev' & E' & Hs). rewrite E in E'. injection E' as <- <- <-. destruct Hs as [(n1 & f1 & K1 & S1 & _ & O & ->)|(N & _)]; [|exfalso; eapply N; eauto].
    destruct O as (O1 & _ & _ & x & x' & _ & O2 & _). specialize (IH x' O2 F'). rewrite O1 in IH. destruct (is_syslog (Some f1)), (is_syslog (c_func c)); cbn [app sys_open]; exact IH. }
  assert (Y : forall c, is_syslog (c_func c) = true <-> get_type c = chars "syslog").
  { intros [m [[]|] p]; unfold get_type; cbn [c_func is_syslog]; split; intros X; try reflexivity; vm_compute in X; discriminate. }
  intros E0 N T F. exists (is_syslog (c_func c')). split; [|apply Y]. rewrite <- (G _ _ _ _ T x0 E0 F). destruct (is_syslog (c_func c)) eqn:Es; [|reflexivity]. exfalso. apply N. apply Y. auto.
Qed.
Print Assumptions C65_syslog_partial.

Example C65_example_syslog : exists c' ev, type_calls x_conf [(Some (chars "SYSLOG"), None); (Some (chars "syslog"), Some (chars "me")); (Some (chars "stdout"), None)] c' ev /\ ev = [Openlog; Closelog] /\ get_type x_conf <> chars "syslog".
Proof.
  eexists. eexists. split; [|split; [|vm_compute; discriminate]].
  - eapply tc_cons; [vm_compute; reflexivity|]. eapply tc_cons; [vm_compute; reflexivity|]. eapply tc_cons; [vm_compute; reflexivity|]. apply tc_nil.
  - reflexivity.
Qed.

(* With an unknown type it is closed while it is used, and closed again *)
Theorem C65_syslog_refuted : exists c l c' ev, get_type c = chars "stdout" /\ type_calls c l c' ev /\ get_type c' = chars "syslog" /\ sys_open false ev = None.
Proof.
  exists x_conf, [(Some (chars "syslog"), None); (Some (chars "bogus"), None); (Some (chars "bogus"), None)]. eexists. eexists. split; [reflexivity|]. split; [|split].
  - eapply tc_cons; [vm_compute; reflexivity|]. eapply tc_cons; [vm_compute; reflexivity|]. eapply tc_cons; [vm_compute; reflexivity|]. apply tc_nil.
  - reflexivity.
  - reflexivity.
Qed.
Print Assumptions C65_syslog_refuted.

(* ---------------- C66 ---------------- *)

(* Missing: 4 GB and more; bytes for which isprint is undefined *)
Theorem C66_dump_partial d isp c m x lv prefix data : Forall is_byte data -> portable d data -> isp 0 = false -> len data < 2 ^ 32 ->
  nth_error (c_mods c) (dest m) = Some x -> plain c m -> (forall text, ~ goes c (dest m) x lv text None) ->
  (eventually (fun n => enabled n c m lv) true -> exists n, forall fuel, (n <= fuel)%nat -> exists lines outs, dump fuel d isp c m lv prefix data (len data) = Ok outs /\
     dump_lines (fun b => isp (if b <? 128 then b else b - 256)) (match prefix with Some p => p | None => [] end) 0 data lines /\ Forall2 (fun line o => goes c (dest m) x lv line (Some o)) lines outs) /\
  (eventually (fun n => enabled n c m lv) false -> eventually (fun n => dump n d isp c m lv prefix data (len data)) []).
Proof.
  intros Hb Hp Hi Hl Ex Pl Ng. split.
  - intros (n & En). exists (n + length data)%nat. intros fuel Hf. specialize (En fuel ltac:(lia)). unfold dump. rewrite En. cbn [bind].
    destruct (dump_loop_spec d isp (match prefix with Some p => p | None => [] end) data Hb Hp Hi Hl fuel 0) as (l & E & D); [pose proof (len_nonneg data); lia|unfold len; lia|]. rewrite Z.sub_0_r in E. rewrite E. cbn [bind].
    destruct (log_all_enabled c m x lv fuel Ex Pl En l Ng) as (outs & Eo & F). exists l, outs. split; [exact Eo|]. split; [exact D|exact F].
  - intros (n & En). exists n. intros fuel Hf. unfold dump. rewrite (En fuel Hf). reflexivity.
Qed.
Print Assumptions C66_dump_partial.

(* the lines contain all of the data *)
Theorem C66_complete pr prefix o data lines : dump_lines pr prefix o data lines ->
  exists parts, concat parts = data /\ Forall2 (fun part line => exists n, line = prefix ++ n ++ chars ": " ++ dump_line pr part) parts lines /\ Forall (fun part => 0 < len part <= 16) parts.
Proof.
  induction 1 as [o|o dd n Hn Hl Hx|o dd e n l Hl He Hx D (parts & C & F & A)].
  - exists []. repeat split; constructor.
  - exists [dd]. split; [cbn; apply app_nil_r|]. split; [constructor; [eauto|constructor]|]. constructor; [|constructor]. destruct dd as [|x dd]; [congruence|]. rewrite len_cons in *. pose proof (len_nonneg dd). lia.
  - exists (dd :: parts). split; [cbn; congruence|]. split; [constructor; eauto|]. constructor; [lia|auto].
Qed.
Print Assumptions C66_complete.

(* a dump of 17 bytes *)
Example C66_example : exists outs, dump 5 Strict (fun c => (32 <=? c) && (c <? 127)) x_conf (Some 3%nat) 4 (Some (chars "> ")) (chars "Hello, world! 17") 16 = Ok outs /\
  outs = [OProc (PClient 7) 3 4 (chars "> 0000: 48 65 6c 6c 6f 2c 20 77  6f 72 6c 64 21 20 31 37    Hello, w orld! 17")] /\
  portable Strict (chars "Hello, world! 17") /\ Forall is_byte (chars "Hello, world! 17").
Proof. eexists. split; [vm_compute; reflexivity|]. split; [vm_compute; reflexivity|]. split; [right|]; cbn; repeat constructor; unfold is_byte; lia. Qed.
Example C66_example_goes : forall text, ~ goes x_conf 3 (LogMod (Some (chars "c")) (Some 2%nat) (Some (PClient 7)) (-1) 0) 4 text None.
Proof. intros text (p & [H|(H & _)] & G); cbn in H; [|discriminate]. injection H as <-. destruct G as [(_ & G)|[(G & _)|(G & _)]]; discriminate. Qed.

(* With 4 GB or more it does not end *)
Theorem C66_endless d isp c m lv prefix data : Forall is_byte data -> portable d data -> isp 0 = false -> 2 ^ 32 <= len data < 2 ^ 64 ->
  eventually (fun n => enabled n c m lv) true -> exists n, forall fuel, (n <= fuel)%nat -> dump fuel d isp c m lv prefix data (len data) = Fail NoFuel.
Proof.
  intros Hb Hp Hi Hl (n & En). exists n. intros fuel Hf. unfold dump. rewrite (En fuel Hf). cbn [bind]. pose proof (u32_range (len data)) as R. unfold in_u32 in R. rewrite dump_loop_never; auto; lia.
Qed.
Print Assumptions C66_endless.

Lemma some_data n : exists data, length data = n /\ Forall is_byte data /\ Forall (fun b => b < 128 \/ b = 255) data.
Proof. exists (repeat 0 n). rewrite repeat_length. split; auto. split; apply Forall_forall; intros x Hx; apply repeat_spec in Hx; subst; [unfold is_byte|]; lia. Qed.
Theorem C66_refuted : exists isp c data, Forall is_byte data /\ len data = 2 ^ 32 /\ eventually (fun n => enabled n c None 3) true /\
  forall d, exists n, forall fuel, (n <= fuel)%nat -> dump fuel d isp c None 3 None data (len data) = Fail NoFuel.
Proof.
  destruct (some_data (Z.to_nat (2 ^ 32))) as (data & L & B & P). assert (L' : len data = 2 ^ 32) by (unfold len; rewrite L; apply Z2Nat.id; lia).
  assert (Ev : eventually (fun n => enabled n x_conf None 3) true) by (exists 1%nat; intros [|fuel] Hf; [lia|reflexivity]).
  exists (fun _ => false), x_conf, data. split; auto. split; auto. split; auto. intros d. apply C66_endless; auto; [right; exact P|rewrite L'; lia].
Qed.
Print Assumptions C66_refuted.

(* ---------------- C67 ---------------- *)

(* Missing: texts of INT_MAX or more characters and messages which cannot be formatted *)
Theorem C67_format_partial d h buf t : len t < 2 ^ 31 - 1 ->
  exists h' buf' b r, eventually (fun n => format n d h buf (FText t)) (h', buf', Some b) /\ block h' buf' b = Some (map Some (t ++ [0]) ++ r) /\
    ((b = BCaller /\ h' = h /\ len t < len buf) \/ (b = BHeap (length h) /\ len buf <= len t /\ exists x, h' = h ++ [Some x])).
Proof. intros Ht. destruct (format_text d h buf t Ht) as (h' & buf' & b & r & E & H). exists h', buf', b, r. split; [exists 2%nat; exact E|exact H]. Qed.
Print Assumptions C67_format_partial.
Example C67_example : exists h, format 2 Strict [] (malloc 4) (FText (chars "hello")) = Ok (h, map Some (chars "hel" ++ [0]), Some (BHeap 0)) /\ h = [Some (map Some (chars "hello" ++ [0]))].
Proof. eexists. split; vm_compute; reflexivity. Qed.

(* If the message cannot be formatted, or if it is too long for an int, the size is doubled until it
   overflows *)
Theorem C67_overflow d h f fuel : hopeless f -> (22 <= fuel)%nat -> format fuel d h (malloc 512) f = Fail (overflow d).
Proof.
  intros Hf Hn. unfold format. rewrite malloc_length by lia. change 512 with (2 ^ (30 - Z.of_nat 21)) at 2. rewrite (format_hopeless d f Hf fuel 21 h (malloc 512) BCaller (malloc 512)); [|reflexivity|rewrite malloc_length; cbn; lia|lia].
  destruct (Nat.leb_spec fuel 21); [lia|reflexivity].
Qed.
Print Assumptions C67_overflow.
Theorem C67_max d h t fuel : len t = 2 ^ 31 - 1 -> (1 <= fuel)%nat -> format fuel d h (malloc 512) (FText t) = Fail (overflow d).
Proof. intros Ht Hf. apply format_max; auto. rewrite malloc_length; unfold INT_MAX; lia. Qed.
Print Assumptions C67_max.
Theorem C67_refuted : exists f, forall d h fuel, (22 <= fuel)%nat -> format fuel d h (malloc 512) f = Fail (match d with Strict => SignedOverflow | Wrap => AllocAbort end).
Proof. exists FError. intros d h fuel Hf. apply C67_overflow; [exact I|exact Hf]. Qed.
Print Assumptions C67_refuted.

(* ---------------- C68 ---------------- *)

Theorem C68_lifetime l : exists s, t_run t_start l = Ok s /\ current_format s = Ok (format_after l) /\
  forall a x, nth_error (t_heap s) a = Some (Some x) -> t_use s = TCustom a /\ last l None = Some x.
Proof.
  destruct (t_run_inv l t_start [] t_start_inv) as (s & E & C & U & _ & H). exists s. split; auto. split; auto. intros a x X. apply H in X. destruct X as (X & Y). rewrite X in U. auto.
Qed.
Print Assumptions C68_lifetime.
(* gutil_log_deinit leaves nothing behind *)
Theorem C68_no_leak l : exists s, t_run t_start (l ++ [None]) = Ok s /\ forall a x, nth_error (t_heap s) a <> Some (Some x).
Proof. destruct (C68_lifetime (l ++ [None])) as (s & E & _ & H). exists s. split; auto. intros a x X. apply H in X. rewrite last_last in X. destruct X. discriminate. Qed.
Print Assumptions C68_no_leak.
Example C68_example : exists s, t_run t_start [Some (chars "%H"); Some (chars "%M"); Some (chars "%M"); Some (chars "%S ")] = Ok s /\ t_heap s = [None; None; Some (chars "%S ")] /\ t_use s = TCustom 2.
Proof. eexists. split; [vm_compute; reflexivity|]. split; reflexivity. Qed.

(* ---------------- C83 ---------------- *)

(* Missing: timestamps of 32 characters and more, messages of INT_MAX and more *)
Theorem C83_line_partial d h (ts : bool) l s expansion tid name level t : t_run t_start l = Ok s -> no_nul t -> len t < 2 ^ 31 - 1 ->
  (ts = true -> format_after l <> [] -> len (expansion (format_after l)) < 32) ->
  exists h', eventually (fun n => stdio n d h ts s expansion tid name level (FText t))
    (h', tag tid ++ (if ts then match format_after l with [] => [] | f => expansion f end else []) ++ tag (non_empty name) ++ severity ":" level ++ t ++ [10]) /\ no_leak h h'.
Proof.
  intros R Nt Ht He. destruct (C68_lifetime l) as (s' & R' & C & _). rewrite R in R'. injection R' as <-. destruct (format_use d h t Nt Ht) as (h1 & buf1 & b1 & h2 & E1 & E2 & E3 & E4). exists h2. split; [|exact E4]. exists 2%nat. intros fuel Hf.
  unfold stdio. assert (Et : timestamp ts s expansion = Ok (if ts then match format_after l with [] => [] | f => expansion f end else [])).
  { unfold timestamp. destruct ts; auto. rewrite C. cbn [bind]. destruct (format_after l) as [|c f]; auto. specialize (He eq_refl ltac:(discriminate)). cbv zeta. destruct (Z.ltb_spec (len (expansion (c :: f))) 32); [reflexivity|lia]. }
  rewrite Et. cbn [bind]. rewrite (E1 fuel Hf). cbn [bind]. rewrite E2. cbn [bind]. rewrite E3. cbn [bind]. f_equal. f_equal.
  replace (opt_brackets tid) with (tag tid) by (destruct tid; reflexivity). replace (opt_brackets (named name)) with (tag (non_empty name)) by (destruct name as [[|]|]; reflexivity).
  replace (stdio_prefix level) with (severity ":" level); [reflexivity|]. unfold severity, stdio_prefix, WARN, ERR. destruct (Z.eqb_spec level 1) as [->|]; [reflexivity|]. destruct (Z.eqb_spec level 2); reflexivity.
Qed.
Print Assumptions C83_line_partial.
Example C83_example : stdio 2 Strict [] true t_start (fun _ => chars "12:00 ") (Some (chars "77")) (Some (chars "mod")) 1 (FText (chars "hello")) = Ok ([], chars "[77] 12:00 [mod] ERROR: hello" ++ [10]).
Proof. vm_compute. reflexivity. Qed.

(* A timestamp which does not fit is not left out: what is printed is not defined *)
Theorem C83_refuted : exists f expansion s, t_run t_start [Some f] = Ok s /\ 32 <= len (expansion f) /\ forall d h fuel tid name level t, stdio fuel d h true s expansion tid name level t = Fail UninitRead.
Proof.
  exists (chars "%A %d %B %Y, %H:%M:%S "), (fun _ => chars "Wednesday 16 September 2026, 12:00:00 "). eexists. split; [vm_compute; reflexivity|]. split; [vm_compute; discriminate|]. intros. reflexivity.
Qed.
Print Assumptions C83_refuted.

(* ---------------- C84 ---------------- *)

(* Missing: messages of INT_MAX characters and more *)
Theorem C84_syslog_partial d h dname tid name level t : no_nul t -> len t < 2 ^ 31 - 1 ->
  exists h' shown, eventually (fun n => syslog n d h dname tid name level (FText t)) (h', syslog_priority level, Some (tag tid ++ tag shown ++ severity "!" level ++ t)) /\ no_leak h h' /\
    ((name = None \/ name = Some [] \/ name = dname) -> shown = None) /\ (~ (name = None \/ name = Some [] \/ name = dname) -> shown = name).
Proof.
  intros Nt Ht. destruct (format_use d h t Nt Ht) as (h1 & buf1 & b1 & h2 & E1 & E2 & E3 & E4).
  set (shown := match named name with Some n => if strcmp0_eq (Some n) dname then None else Some n | None => None end).
  assert (Hs : ((name = None \/ name = Some [] \/ name = dname) -> shown = None) /\ (~ (name = None \/ name = Some [] \/ name = dname) -> shown = name)).
  { unfold shown. destruct name as [[|c n]|]; cbn [named]; [split; [auto|]; intros X; exfalso; apply X; auto| |split; auto].
    destruct dname as [dn|]; [|split; [intros [X|[X|X]]; discriminate|reflexivity]]. destruct (strcmp0_eq (Some (c :: n)) (Some dn)) eqn:Es.
    - apply strcmp0_spec in Es. subst dn. split; auto. intros X. exfalso. apply X. auto.
    - split; auto. intros [X|[X|X]]; try discriminate. injection X as <-. assert (Y : strcmp0_eq (Some (c :: n)) (Some (c :: n)) = true) by (apply strcmp0_spec; auto). congruence. }
  assert (Px : match syslog_prefix level with Some p => p | None => [] end = severity "!" level).
  { unfold severity, syslog_prefix, WARN, ERR. destruct (Z.eqb_spec level 1) as [->|]; [reflexivity|]. destruct (Z.eqb_spec level 2); reflexivity. }
  assert (Tg : forall o, opt_brackets o = tag o) by (intros [o|]; reflexivity).
  assert (D : (shown = None /\ syslog_prefix level = None /\ tid = None) \/ ~ (shown = None /\ syslog_prefix level = None /\ tid = None)) by (destruct shown, (syslog_prefix level), tid; auto; right; intros (X & Y & Z0); discriminate).
  destruct D as [(D1 & D2 & D3)|D].
  - exists h, shown. split; [|split; [exists 0%nat; cbn; rewrite app_nil_r; auto|exact Hs]]. exists 0%nat. intros fuel _. unfold syslog. fold shown. rewrite D2 in Px. rewrite D1, D2, D3, <- Px. reflexivity.
  - exists h2, shown. split; [|split; [exact E4|exact Hs]]. exists 2%nat. intros fuel Hf. unfold syslog. fold shown.
    assert (Ef : (do (h, buf, msg) <- format fuel d h (malloc 512) (FText t); do m <- text_of h buf msg; let text := opt_brackets tid ++ opt_brackets shown ++ (match syslog_prefix level with Some p => p | None => [] end) ++ m in do h <- release h msg; Ok (h, syslog_priority level, Some text)) = Ok (h2, syslog_priority level, Some (tag tid ++ tag shown ++ severity "!" level ++ t))).
    { rewrite (E1 fuel Hf). cbn [bind]. rewrite E2. cbn [bind]. cbv zeta. rewrite E3. cbn [bind]. rewrite Px, !Tg. reflexivity. }
    rewrite <- Ef. destruct shown as [sn|]; [reflexivity|]. destruct (syslog_prefix level) as [px|]; [reflexivity|]. destruct tid as [ti|]; [reflexivity|]. exfalso. apply D. auto.
Qed.
Print Assumptions C84_syslog_partial.
Example C84_example : syslog 2 Strict [] (Some (chars "me")) None (Some (chars "me")) 3 (FText (chars "100%")) = Ok ([], 5, Some (chars "100%")) /\
  syslog 2 Strict [] (Some (chars "me")) (Some (chars "7")) (Some (chars "mod")) 2 (FText (chars "hot")) = Ok ([], 4, Some (chars "[7] [mod] WARNING! hot")).
Proof. split; vm_compute; reflexivity. Qed.

(* A longer message with a prefix makes the size overflow, as in C67 *)
Theorem C84_syslog_refuted : exists t, no_nul t /\ forall d h fuel, (1 <= fuel)%nat -> syslog fuel d h None None None 1 (FText t) = Fail (match d with Strict => SignedOverflow | Wrap => AllocAbort end).
Proof.
  assert (exists z, z = 2 ^ 31 - 1) as (z & Hz) by eauto. exists (repeat 97 (Z.to_nat z)). split.
  - apply Forall_forall. intros c M. apply repeat_spec in M. subst c. lia.
  - intros d h fuel Hf. unfold syslog. cbn [named syslog_prefix Z.eqb]. rewrite C67_max; [destruct d; reflexivity|unfold len; rewrite repeat_length; lia|exact Hf].
Qed.
Print Assumptions C84_syslog_refuted.

(* Errors have the priority LOG_ERR (3); the priority gets lower (larger) from each level to the next.
   The same goes for the flags of GLib, the first one being G_LOG_LEVEL_CRITICAL (8). *)
Theorem C84_severity : syslog_priority 1 = 3 /\ glib_flags 1 = 8 /\ (forall a b, 1 <= a -> a < b -> b <= 5 -> syslog_priority a < syslog_priority b /\ glib_flags a < glib_flags b) /\
  (forall a, ~ (1 <= a <= 5) -> syslog_priority a = syslog_priority 3 /\ glib_flags a = glib_flags 3).
Proof.
  split; [reflexivity|]. split; [reflexivity|]. split.
  - intros a b H1 H2 H3. assert (Ca : a = 1 \/ a = 2 \/ a = 3 \/ a = 4) by lia. assert (Cb : b = 2 \/ b = 3 \/ b = 4 \/ b = 5) by lia. destruct Ca as [->|[->|[->| ->]]], Cb as [->|[->|[->| ->]]]; try lia; split; reflexivity.
  - intros a H. unfold syslog_priority, glib_flags, VERBOSE, DEBUG, WARN, ERR. destruct (Z.eqb_spec a 5), (Z.eqb_spec a 4), (Z.eqb_spec a 2), (Z.eqb_spec a 1); try lia; auto.
Qed.
Print Assumptions C84_severity.

(* ---------------- C85 ---------------- *)

(* the environment variable is set to the number v, or to white space only (see C29_parse_int_refuted) *)
Definition env_int (lc : libc) (e : option (list Z)) (v : Z) : Prop :=
  exists s, e = Some s /\ ((is_number 0 s v /\ in_s32 v) \/ blank_zero lc 0 s v).

Lemma env_parse lc e old : (exists v, env_int lc e v /\ parse_int lc e 0 (Some old) = (true, Some v)) \/ ((forall v, ~ env_int lc e v) /\ parse_int lc e 0 (Some old) = (false, Some old)).
Proof.
  destruct e as [s|].
  - destruct (C29_parse_int_partial lc s 0 old) as (H1 & H2). destruct (parse_int lc (Some s) 0 (Some old)) as (b & r) eqn:E. cbn [fst snd] in H2. destruct b.
    + left. assert (R : exists v, r = Some v). { unfold parse_int in E. destruct (parse_int64 lc (Some s) 0 (Some 0)) as ([|] & [ll|]); try congruence. destruct (_ && _); [|congruence]. cbn in E. injection E as <-. eauto. }
      destruct R as (v & ->). exists v. split; auto. exists s. split; auto. apply H1. auto.
    + right. rewrite H2 by auto. split; auto. intros v (s' & Es & Hv). injection Es as <-. apply H1 in Hv. congruence.
  - right. split; [intros v (s & E & _); discriminate|]. apply (C29_parse_int_null lc None 0 old).
Qed.
Lemma env_unique lc e v w : env_int lc e v -> env_int lc e w -> v = w.
Proof. intros (s & -> & H1) (s' & E & H2). injection E as <-. apply (C29_parse_int_partial lc s 0 0) in H1. apply (C29_parse_int_partial lc s 0 0) in H2. congruence. Qed.

(* Variables which are not set, are not numbers or are out of range change nothing *)
Theorem C85_environment lc level ts tid e1 e2 e3 level' ts' tid' : init lc level ts tid e1 e2 e3 = (level', ts', tid') ->
  (forall v, env_int lc e1 v -> -1 <= v -> level' = v) /\ ((forall v, env_int lc e1 v -> v < -1) -> level' = level) /\
  (forall v, env_int lc e2 v -> 0 <= v -> (ts' = true <-> v <> 0)) /\ ((forall v, env_int lc e2 v -> v < 0) -> ts' = ts) /\
  (forall v, env_int lc e3 v -> 0 <= v -> (tid' = true <-> v <> 0)) /\ ((forall v, env_int lc e3 v -> v < 0) -> tid' = tid).
Proof.
  unfold init, INHERIT.
  assert (P : forall e old, exists b v, parse_int lc e 0 (Some old) = (b, Some v) /\ (b = true -> env_int lc e v) /\ (b = false -> forall v, ~ env_int lc e v)).
  { intros e old. destruct (env_parse lc e old) as [(v & V & E)|(V & E)]; [exists true, v|exists false, old]; repeat split; auto; discriminate. }
  destruct (P e1 0) as (b1 & v1 & E1 & A1 & B1). rewrite E1. destruct (P e2 v1) as (b2 & v2 & E2 & A2 & B2). rewrite E2. destruct (P e3 v2) as (b3 & v3 & E3 & A3 & B3). rewrite E3. intros H. injection H as <- <- <-.
  assert (G : forall e (b : bool) v, (b = true -> env_int lc e v) -> (b = false -> forall v, ~ env_int lc e v) -> forall w, env_int lc e w -> b = true /\ w = v).
  { intros e b v A B w W. destruct b; [split; auto; eapply env_unique; eauto|]. exfalso. eapply B; eauto. }
  split; [|split; [|split; [|split; [|split]]]].
  - intros v V Hv. destruct (G e1 b1 v1 A1 B1 v V) as (-> & ->). cbn [andb]. destruct (Z.geb_spec v1 (-1)); [auto|lia].
  - intros H. destruct b1; [|reflexivity]. specialize (H v1 (A1 eq_refl)). cbn [andb]. destruct (Z.geb_spec v1 (-1)); [lia|auto].
  - intros v V Hv. destruct (G e2 b2 v2 A2 B2 v V) as (-> & ->). cbn [andb]. destruct (Z.geb_spec v2 0); [|lia]. rewrite Z.gtb_lt. lia.
  - intros H. destruct b2; [|reflexivity]. specialize (H v2 (A2 eq_refl)). cbn [andb]. destruct (Z.geb_spec v2 0); [lia|auto].
  - intros v V Hv. destruct (G e3 b3 v3 A3 B3 v V) as (-> & ->). cbn [andb]. destruct (Z.geb_spec v3 0); [|lia]. rewrite Z.gtb_lt. lia.
  - intros H. destruct b3; [|reflexivity]. specialize (H v3 (A3 eq_refl)). cbn [andb]. destruct (Z.geb_spec v3 0); [lia|auto].
Qed.
Print Assumptions C85_environment.
Example C85_example : init glibc 3 false false (Some (chars " 5")) (Some (chars "0x1")) (Some (chars "-1")) = (5, true, false) /\ init glibc 3 false true (Some (chars "verbose")) None (Some (chars "0")) = (3, false, false).
Proof. split; vm_compute; reflexivity. Qed.
