(* Proofs about LogModel.v *)
From Coq Require Import String Ascii List.
From Verif Require Import Base HexModel HexSpec HexProofs ParseModel ParseSpec LogModel LogSpec.
Import ListNotations.
Open Scope Z_scope.

(* ---------------- levels ---------------- *)

Lemma land_bit f n : 0 <= n -> negb (Z.land f (2 ^ n) =? 0) = Z.testbit f n.
Proof.
  intros Hn. destruct (Z.testbit f n) eqn:B.
  - apply negb_true_iff, Z.eqb_neq. intros E. assert (T : Z.testbit (Z.land f (2 ^ n)) n = true) by (rewrite Z.land_spec, B, Z.pow2_bits_true; auto). rewrite E, Z.bits_0 in T. discriminate.
  - apply negb_false_iff, Z.eqb_eq. apply Z.bits_inj'. intros k Hk. rewrite Z.land_spec, Z.bits_0, Z.pow2_bits_eqb by auto. destruct (Z.eqb_spec n k) as [<-|]; [rewrite B|rewrite andb_false_r]; reflexivity.
Qed.
Lemma disabled_bit x : disabled x = Z.testbit (m_flags x) 1.
Proof. exact (land_bit (m_flags x) 1 ltac:(lia)). Qed.
Lemma hidden_bit x : hidden x = Z.testbit (m_flags x) 0.
Proof. exact (land_bit (m_flags x) 0 ltac:(lia)). Qed.

Lemma passes_wanted lv v : passes lv v = true <-> wanted lv v.
Proof. unfold passes, wanted, NONE, ALWAYS. rewrite orb_true_iff, andb_true_iff, Z.gtb_lt, Z.leb_le, Z.eqb_eq. tauto. Qed.

Lemma the_mod_ok c m x : nth_error (c_mods c) m = Some x -> the_mod c m = Ok x.
Proof. unfold the_mod. intros ->. reflexivity. Qed.

(* both functions go up the same way *)
Lemma enabled_r_path c lv d : default_level c = Ok d -> forall l m p, path (c_mods c) m l p -> forall a x fuel, l = a ++ [x] -> (length l <= fuel)%nat -> Forall inherits a -> Forall (fun x => ~ off x) a ->
  (off x -> enabled_r fuel c m lv = Ok false) /\
  (~ off x -> ~ inherits x -> enabled_r fuel c m lv = Ok (passes lv (m_level x))) /\
  (~ off x -> inherits x -> p = None -> enabled_r fuel c m lv = Ok (passes lv d)).
Proof.
  intros Hd. induction 1 as [m x0 E|m x0 q l p E Eq P IH]; intros a x fuel El Hf Ia Oa.
  - destruct a as [|y a]; [|destruct a; discriminate]. injection El as ->. destruct fuel as [|fuel]; [cbn in Hf; lia|]. cbn [enabled_r]. rewrite (the_mod_ok _ _ _ E). cbn [bind]. rewrite disabled_bit. unfold off, inherits in *.
    destruct (Z.testbit (m_flags x) 1); [repeat split; auto; congruence|]. unfold INHERIT. destruct (Z.eqb_spec (m_level x) (-1)).
    + repeat split; try congruence. intros _ _ ->. rewrite Hd. reflexivity.
    + repeat split; auto; congruence.
  - destruct a as [|y a]; [injection El as -> ->; inversion P|]. cbn in El. injection El as -> ->. inversion Ia as [|? ? Iy Ia']; subst. inversion Oa as [|? ? Oy Oa']; subst.
    destruct fuel as [|fuel]; [cbn in Hf; lia|]. cbn [enabled_r]. rewrite (the_mod_ok _ _ _ E). cbn [bind]. rewrite disabled_bit. unfold off in Oy. destruct (Z.testbit (m_flags y) 1); [congruence|].
    unfold inherits in Iy. rewrite Iy. unfold INHERIT. rewrite Z.eqb_refl, Eq. apply (IH a x fuel); auto. cbn in Hf. lia.
Qed.

Lemma off_dec x : {off x} + {~ off x}.
Proof. unfold off. destruct (Z.testbit (m_flags x) 1); auto. Qed.

Lemma first_off mods m p : forall a x, path mods m (a ++ [x]) p -> off x -> Forall inherits a ->
  exists a' x' p', path mods m (a' ++ [x']) p' /\ off x' /\ Forall inherits a' /\ Forall (fun x => ~ off x) a'.
Proof.
  intros a x P. remember (a ++ [x]) as l eqn:El. revert a x El. induction P as [m x0 E|m x0 q l p E Eq P IH]; intros a x El O I.
  - destruct a as [|y a]; [|destruct a; discriminate]. injection El as ->. exists [], x, (m_parent x). repeat split; auto. apply path_one. auto.
  - destruct a as [|y a]; [injection El as -> ->; inversion P|]. cbn in El. injection El as -> ->. inversion I as [|? ? Iy I']; subst.
    destruct (off_dec y) as [Oy|Oy].
    + exists [], y, (m_parent y). repeat split; auto. apply path_one. auto.
    + destruct (IH a x eq_refl O I') as (a' & x' & p' & P' & O' & Ia & Na). exists (y :: a'), x', p'. split; [|auto]. cbn. eapply path_up; eauto.
Qed.

Lemma enabled_silenced c m lv d : default_level c = Ok d -> silenced (c_mods c) m -> eventually (fun n => enabled_r n c m lv) false.
Proof.
  intros Hd (a & x & p & P & I & O). destruct (first_off _ _ _ _ _ P O I) as (a' & x' & p' & P' & O' & I' & N').
  exists (length (a' ++ [x'])). intros fuel Hf. exact (proj1 (enabled_r_path c lv d Hd _ _ _ P' a' x' fuel eq_refl Hf I' N') O').
Qed.
Lemma enabled_level c m lv d v : default_level c = Ok d -> has_level (c_mods c) d m v -> eventually (fun n => enabled_r n c m lv) (passes lv v).
Proof.
  intros Hd (a & x & p & P & I & O & H). apply Forall_app in O. destruct O as (Oa & Ox). inversion Ox as [|? ? Nx _]; subst.
  exists (length (a ++ [x])). intros fuel Hf. pose proof (enabled_r_path c lv d Hd _ _ _ P a x fuel eq_refl Hf I Oa) as (_ & E1 & E2).
  destruct H as [(N & ->)|(Y & -> & ->)]; auto.
Qed.

(* one of both holds if the way up ends somewhere *)
Lemma level_total mods d m l : path mods m l None -> silenced mods m \/ exists v, has_level mods d m v.
Proof.
  intros P. remember None as p eqn:Ep. induction P as [m x E|m x q l p E Eq P IH].
  - destruct (off_dec x) as [O|O]; [left; exists [], x, (m_parent x); repeat split; auto; apply path_one; auto|]. right.
    destruct (Z.eq_dec (m_level x) (-1)) as [I|I].
    + exists d, [], x, (m_parent x). repeat split; [apply path_one; auto|auto|cbn; auto|]. right. auto.
    + exists (m_level x), [], x, (m_parent x). repeat split; [apply path_one; auto|auto|cbn; auto|]. left. auto.
  - destruct (off_dec x) as [O|O]; [left; exists [], x, (m_parent x); repeat split; auto; apply path_one; auto|].
    destruct (Z.eq_dec (m_level x) (-1)) as [I|I].
    + destruct (IH Ep) as [(a & y & p' & P' & Ia & Oy)|(v & a & y & p' & P' & Ia & Oa & H)].
      * left. exists (x :: a), y, p'. repeat split; auto. cbn. eapply path_up; eauto.
      * right. exists v, (x :: a), y, p'. repeat split; auto; [cbn; eapply path_up; eauto|]. cbn. auto.
    + right. exists (m_level x), [], x, (m_parent x). repeat split; [apply path_one; auto|auto|cbn; auto|]. left. auto.
Qed.

(* ---------------- logv follows enabled ---------------- *)

Lemma logv_r_enabled c m0 x0 p0 lv text : nth_error (c_mods c) m0 = Some x0 -> c_func2 c = Some p0 -> forall fuel m b, enabled_r fuel c m lv = Ok b ->
  exists o, logv_r fuel c (Some m0) (Some m) lv text = Ok o /\ (b = false -> o = None) /\ (b = true -> goes c m0 x0 lv text o).
Proof.
  intros E0 F2.
  assert (Print : forall max : Z, exists o, (if passes lv max then do x <- the_mod c m0; match m_proc x with Some p => call_proc c p m0 lv text | None => match c_func2 c with Some p => call_proc c p m0 lv text | None => Fail NullCall end end else Ok None) = Ok o /\ (passes lv max = false -> o = None) /\ (passes lv max = true -> goes c m0 x0 lv text o)).
  { intros max. destruct (passes lv max); [|exists None; repeat split; auto; discriminate]. rewrite (the_mod_ok _ _ _ E0). cbn [bind].
    assert (G : forall p, (m_proc x0 = Some p \/ m_proc x0 = None /\ c_func2 c = Some p) -> exists o, call_proc c p m0 lv text = Ok o /\ goes c m0 x0 lv text o).
    { intros p Hp. destruct p; cbn [call_proc].
      - rewrite (the_mod_ok _ _ _ E0). cbn [bind]. eexists. split; [reflexivity|]. exists PDefault. split; auto. right. destruct (c_func c) as [f|]; [right|left; auto]. split; auto. exists f. split; auto. rewrite hidden_bit. destruct (Z.testbit (m_flags x0) 0); auto.
      - eexists. split; [reflexivity|]. exists PStdout2. split; auto. left. split; [discriminate|auto].
      - eexists. split; [reflexivity|]. exists PStderr2. split; auto. left. split; [discriminate|auto].
      - eexists. split; [reflexivity|]. exists PSyslog2. split; auto. left. split; [discriminate|auto].
      - eexists. split; [reflexivity|]. exists PGlib2. split; auto. left. split; [discriminate|auto].
      - eexists. split; [reflexivity|]. exists (PClient n). split; auto. left. split; [discriminate|auto]. }
    destruct (m_proc x0) as [p|] eqn:Ep.
    - destruct (G p) as (o & E & H); auto. exists o. repeat split; auto. discriminate.
    - rewrite F2 in *. destruct (G p0) as (o & E & H); auto. exists o. repeat split; auto. discriminate. }
  induction fuel as [|fuel IH]; intros m b; cbn [enabled_r logv_r]; [discriminate|].
  destruct (the_mod c m) as [x|]; cbn [bind]; [|discriminate]. destruct (disabled x); [intros H; injection H as <-; exists None; repeat split; auto; discriminate|].
  destruct (m_level x =? INHERIT).
  - destruct (m_parent x) as [q|]; [apply IH|]. destruct (default_level c) as [d|]; cbn [bind]; [|discriminate]. intros H. injection H as <-. exact (Print d).
  - intros H. injection H as <-. exact (Print (m_level x)).
Qed.

Lemma logv_none_default c x0 lv text fuel : nth_error (c_mods c) 0 = Some x0 -> disabled x0 = false -> (m_level x0 <> -1 \/ m_parent x0 = None) ->
  logv_r (S fuel) c None None lv text = logv_r (S fuel) c (Some 0%nat) (Some 0%nat) lv text.
Proof.
  intros E D H. cbn [logv_r]. unfold default_level. rewrite (the_mod_ok _ _ _ E). cbn [bind]. rewrite D. unfold INHERIT. destruct (Z.eqb_spec (m_level x0) (-1)) as [I|I].
  - destruct H as [H|H]; [contradiction|]. rewrite H. rewrite I. reflexivity.
  - reflexivity.
Qed.

(* ---------------- strings ---------------- *)

Lemma strncmp_prefix s : forall w, Forall (fun c => c <> 0) w -> Forall (fun c => c <> 0) s -> (strncmp (length s) w s = 0 <-> exists r, w = s ++ r).
Proof.
  induction s as [|y s IH]; intros w Hw Hs; cbn [length strncmp].
  - split; [intros _; exists w; auto|auto].
  - inversion Hs as [|? ? Hy Hs']; subst. destruct w as [|x w].
    + split; [intros; lia|intros (r & E); discriminate].
    + inversion Hw as [|? ? Hx Hw']; subst. destruct (Z.eqb_spec x y) as [->|N].
      * rewrite IH by auto. split; intros (r & E); exists r; [rewrite E; auto|injection E; auto].
      * split; [intros; lia|]. intros (r & E). injection E as -> _. congruence.
Qed.

Lemma lower_zero c : lower c = 0 -> c = 0.
Proof. unfold lower. destruct ((65 <=? c) && (c <=? 90)) eqn:E; lia. Qed.
Lemma casecmp_same a : forall b, no_nul a -> no_nul b -> (casecmp a b = 0 <-> same_name a b).
Proof.
  unfold same_name. induction a as [|x a IH]; intros [|y b] Ha Hb; cbn [casecmp map].
  - cbn. tauto.
  - inversion Hb; subst. cbn. split; [intros; lia|discriminate].
  - inversion Ha; subst. cbn. split; [intros; lia|discriminate].
  - inversion Ha; inversion Hb; subst. unfold fold_case at 1 3. fold (lower x) (lower y). destruct (Z.eqb_spec (lower x) (lower y)) as [E|E].
    + rewrite IH by auto. rewrite E. split; [intros ->; auto|intros H; injection H; auto].
    + split; [intros; lia|]. intros H. injection H. intros. contradiction.
Qed.
Lemma ncasecmp_same b : forall a, no_nul a -> no_nul b -> ((ncasecmp (length b) a b = 0 /\ length a = length b) <-> same_name a b).
Proof.
  unfold same_name. induction b as [|y b IH]; intros [|x a] Ha Hb; cbn [ncasecmp map length].
  - tauto.
  - split; [intros (_ & H); discriminate|discriminate].
  - split; [intros (_ & H); discriminate|discriminate].
  - inversion Ha; inversion Hb; subst. unfold fold_case at 1 3. fold (lower x) (lower y). destruct (Z.eqb_spec (lower x) (lower y)) as [E|E].
    + rewrite E. split.
      * intros (X1 & X2). injection X2 as X2. f_equal. apply IH; auto.
      * intros X. injection X as X. apply IH in X; auto. destruct X as (-> & ->). auto.
    + split; [intros (X & _); lia|]. intros H. injection H. intros. contradiction.
Qed.

Lemma split_at_none c s : split_at c s = None <-> ~ In c s.
Proof.
  induction s as [|x s IH]; cbn; [tauto|]. destruct (Z.eqb_spec x c) as [->|N].
  - split; [discriminate|tauto].
  - destruct (split_at c s) as [(a & b)|]; [|tauto]. split; [discriminate|]. intros H. exfalso. assert (X : ~ In c s) by tauto. apply IH in X. discriminate.
Qed.
Lemma split_at_some c a : forall b, ~ In c a -> split_at c (a ++ c :: b) = Some (a, b).
Proof.
  induction a as [|x a IH]; intros b N; cbn; [rewrite Z.eqb_refl; auto|]. cbn in N. destruct (Z.eqb_spec x c); [tauto|]. rewrite IH; tauto.
Qed.
Lemma split_at_inv c s a b : split_at c s = Some (a, b) -> s = a ++ c :: b /\ ~ In c a.
Proof.
  revert a b. induction s as [|x s IH]; intros a b; cbn; [discriminate|]. destruct (Z.eqb_spec x c) as [->|N].
  - intros H. injection H as <- <-. auto.
  - destruct (split_at c s) as [(a' & b')|]; [|discriminate]. intros H. injection H as <- <-. destruct (IH a' b' eq_refl) as (-> & N'). split; auto. cbn. intros [|]; auto.
Qed.
Lemma strcmp0_spec a b : strcmp0_eq (Some a) (Some b) = true <-> a = b.
Proof.
  cbn. revert b. induction a as [|x a IH]; intros [|y b]; cbn; try (split; [discriminate|discriminate]); [tauto|].
  rewrite andb_true_iff, Z.eqb_eq, IH. split; [intros (-> & ->); auto|intros H; injection H; auto].
Qed.

(* ---------------- options ---------------- *)

Definition index_digit (c : Z) : index c [48;49;50;51;52;53] = if (48 <=? c) && (c <=? 53) then Some (c - 48) else None.
Proof.
  cbn [index]. repeat match goal with |- context [?a =? c] => destruct (Z.eqb_spec a c) as [<-|]; [reflexivity|] end.
  destruct ((48 <=? c) && (c <=? 53)) eqn:E; [lia|reflexivity].
Qed.

Lemma match_level_spec s : s <> [] -> no_nul s -> forall names i, Forall no_nul names ->
  (forall v, match_level names i s = Some v -> exists k r, v = i + Z.of_nat k /\ nth_error names k = Some (s ++ r)) /\
  (match_level names i s = None -> forall k r, nth_error names k <> Some (s ++ r)).
Proof.
  intros Hs Ns. induction names as [|w names IH]; intros i Hn; cbn [match_level].
  - split; [discriminate|]. intros _ [|k] r; discriminate.
  - inversion Hn as [|? ? Hw Hn']; subst. destruct (Z.eqb_spec (strncmp (length s) w s) 0) as [E|E].
    + apply strncmp_prefix in E; auto. destruct E as (r & ->). split; [|discriminate]. intros v H. injection H as <-. exists 0%nat, r. split; [cbn; lia|reflexivity].
    + destruct (IH (i + 1) Hn') as (A & B). split.
      * intros v H. destruct (A v H) as (k & r & -> & Ek). exists (S k), r. split; [lia|auto].
      * intros H [|k] r; cbn; [|apply B; auto]. intros X. injection X as ->. apply E. apply strncmp_prefix; eauto.
Qed.
Lemma words_eq : level_names = words.
Proof. reflexivity. Qed.
Lemma words_no_nul : Forall no_nul words.
Proof. unfold words, no_nul. cbn. repeat constructor; discriminate. Qed.

Lemma names_level_unique s v w : names_level s v -> names_level s w -> v = w.
Proof.
  assert (First : forall s v, s <> [] -> 0 <= v -> (exists r, nth_error words (Z.to_nat v) = Some (s ++ r)) -> (hd 0 s = 110 /\ v = 0) \/ (hd 0 s = 101 /\ v = 1) \/ (hd 0 s = 119 /\ v = 2) \/ (hd 0 s = 105 /\ v = 3) \/ (hd 0 s = 100 /\ v = 4) \/ (hd 0 s = 118 /\ v = 5)).
  { clear. intros s v Hs Hv (r & E). destruct s as [|c s]; [congruence|]. cbn [hd]. remember (Z.to_nat v) as k eqn:Ek.
    destruct k as [|[|[|[|[|[|k]]]]]]; cbn in E; try (injection E as <-; lia). destruct k; discriminate. }
  intros [(H1 & E1)|(N1 & P1 & X1)] [(H2 & E2)|(N2 & P2 & X2)].
  - rewrite E1 in E2. assert (48 + v = 48 + w) by congruence. lia.
  - apply First in X2; auto. rewrite E1 in X2. cbn [hd] in X2. lia.
  - apply First in X1; auto. rewrite E2 in X1. cbn [hd] in X1. lia.
  - apply First in X1; auto. apply First in X2; auto. lia.
Qed.

Lemma parse_level_spec s e : no_nul s -> (forall v, names_level s v -> parse_level s e = (v, false)) /\ ((forall v, ~ names_level s v) -> parse_level s e = (-1, e)).
Proof.
  intros Ns. assert (D : (exists v, names_level s v /\ parse_level s e = (v, false)) \/ ((forall v, ~ names_level s v) /\ parse_level s e = (-1, e))).
  { destruct s as [|c t]; [right; split; [|reflexivity]; intros v [(_ & H)|(H & _)]; [discriminate|congruence]|].
    cbn [parse_level].
    assert (Mt : (exists v, names_level (c :: t) v /\ match match_level level_names 0 (c :: t) with Some i => (i, false) | None => (-1, e) end = (v, false)) \/
                 ((forall k r, nth_error words k <> Some ((c :: t) ++ r)) /\ match match_level level_names 0 (c :: t) with Some i => (i, false) | None => (-1, e) end = (-1, e))).
    { rewrite words_eq. destruct (match_level_spec (c :: t) ltac:(discriminate) Ns words 0 words_no_nul) as (A & B). destruct (match_level words 0 (c :: t)) as [v|].
      - left. destruct (A v eq_refl) as (k & r & -> & E). exists (0 + Z.of_nat k). split; auto. right. split; [discriminate|]. split; [lia|]. exists r. rewrite Z.add_0_l, Nat2Z.id. auto.
      - right. split; auto. }
    assert (Nd : (forall v, 0 <= v <= 5 -> c :: t <> [48 + v]) -> (forall k r, nth_error words k <> Some ((c :: t) ++ r)) -> forall v, ~ names_level (c :: t) v).
    { intros H1 H2 v [(R & H)|(_ & R & r & H)]; [exact (H1 v R H)|exact (H2 _ r H)]. }
    destruct t as [|c' t].
    - rewrite index_digit. destruct ((48 <=? c) && (c <=? 53)) eqn:E.
      + left. exists (c - 48). split; auto. left. split; [lia|f_equal; lia].
      + destruct Mt as [M|(M1 & M2)]; [auto|]. right. split; auto. apply Nd; auto. intros v Hv H. assert (c = 48 + v) by congruence. lia.
    - destruct Mt as [M|(M1 & M2)]; [auto|]. right. split; auto. apply Nd; auto. intros v Hv H. discriminate. }
  destruct D as [(v & V & E)|(V & E)].
  - split; [intros w W; rewrite (names_level_unique _ _ _ W V); auto|]. intros H. exfalso. eapply H; eauto.
  - split; [intros w W; exfalso; eapply V; eauto|auto].
Qed.

Lemma find_module_spec c name modules : no_nul name -> Forall (fun m => exists n, name_of c m = Some n /\ no_nul n) modules ->
  forall n pre, (n <= length modules)%nat ->
  exists r, find_module n c (pre ++ modules) (len pre) name = Ok r /\
    match r with
    | Some m => first_named c (firstn n modules) name m
    | None => forall m nm, In m (firstn n modules) -> name_of c m = Some nm -> ~ same_name nm name
    end.
Proof.
  intros Nn. induction modules as [|m modules IH]; intros Hv n pre Hn.
  - cbn in Hn. assert (n = 0)%nat as -> by lia. exists None. split; [reflexivity|]. cbn. intros ? ? [].
  - destruct n as [|n]; [exists None; split; [reflexivity|intros ? ? []]|]. inversion Hv as [|? ? (nm & En & Nnm) Hv']; subst. cbn [find_module firstn].
    assert (Hr : rd (pre ++ m :: modules) (len pre) = Ok m). { apply rd_ok. split; [apply len_nonneg|]. unfold len. rewrite Nat2Z.id, nth_error_app2, Nat.sub_diag by lia. reflexivity. }
    rewrite Hr. cbn [bind]. unfold name_of in En. unfold the_mod. destruct (nth_error (c_mods c) m) as [x|] eqn:Ex; [|discriminate]. cbn [bind]. rewrite En. cbn [g_strncasecmp strlen bind].
    assert (En' : name_of c m = Some nm) by (unfold name_of; rewrite Ex; auto).
    destruct (IH Hv' n (pre ++ [m])) as (r & E & H); [cbn in Hn; lia|]. rewrite <- app_assoc, len_app in E. cbn [app] in E. change (len [m]) with 1 in E.
    assert (Miss : ~ same_name nm name -> exists r, find_module n c (pre ++ m :: modules) (len pre + 1) name = Ok r /\ match r with Some m' => first_named c (m :: firstn n modules) name m' | None => forall m' nm', In m' (m :: firstn n modules) -> name_of c m' = Some nm' -> ~ same_name nm' name end).
    { intros Ns. exists r. split; auto. destruct r as [m'|].
      - destruct H as (a & b & n' & Em & E1 & E2 & E3). exists (m :: a), b, n'. repeat split; auto; [cbn; congruence|]. intros k kn [<-|I] Ek; [congruence|eauto].
      - intros m' nm' [<-|I] Ek; [congruence|eauto]. }
    pose proof (ncasecmp_same name nm Nnm Nn) as Sm. destruct (Z.eqb_spec (ncasecmp (length name) nm name) 0) as [Z0|Z0].
    + destruct (Z.eqb_spec (len nm) (len name)) as [L|L].
      * exists (Some m). split; auto. exists [], (firstn n modules), nm. split; [reflexivity|]. split; [auto|]. split; [apply Sm; split; auto; unfold len in L; lia|]. intros ? ? [].
      * apply Miss. intros X. apply Sm in X. unfold len in L. lia.
    + apply Miss. intros X. apply Sm in X. tauto.
Qed.

Lemma set_level_spec c m x v : nth_error (c_mods c) m = Some x -> exists c', set_level c m v = Ok c' /\ only_level c c' m v.
Proof.
  intros E. unfold set_level. rewrite (the_mod_ok _ _ _ E). cbn [bind]. eexists. split; [reflexivity|]. split; [reflexivity|]. split; [reflexivity|]. cbn [c_mods set_mods]. split.
  - intros k Hk. apply nth_error_upd_ne. auto.
  - eexists x, _. split; auto. split; [apply nth_error_upd_eq; apply nth_error_Some; congruence|]. cbn. auto.
Qed.

(* ---------------- timestamp format ---------------- *)

Definition t_inv (s : tstate) (l : list (option (list Z))) : Prop :=
  current_format s = Ok (format_after l) /\
  t_use s = match t_custom s with Some a => TCustom a | None => TDefault end /\
  (t_custom s <> None <-> last l None <> None) /\
  (forall a x, nth_error (t_heap s) a = Some (Some x) <-> (t_custom s = Some a /\ last l None = Some x)).

Lemma set_format_inv s l f : t_inv s l -> exists s', set_timestamp_format s f = Ok s' /\ t_inv s' (l ++ [f]).
Proof.
  intros (C & U & Cn & H). unfold set_timestamp_format. destruct f as [f|].
  - destruct (t_custom s) as [a|] eqn:Ec.
    + assert (L : exists x, last l None = Some x) by (destruct (last l None) as [x|]; [eauto|destruct Cn as (Cn & _); exfalso; apply Cn; congruence]). destruct L as (x & L).
      assert (Hx : nth_error (t_heap s) a = Some (Some x)) by (apply H; auto). unfold read_str. rewrite Hx. cbn [bind]. destruct (strcmp0_eq (Some f) (Some x)) eqn:Es.
      * apply strcmp0_spec in Es. subst f. exists s. split; auto. split; [rewrite C; unfold format_after; rewrite last_last, L; auto|]. rewrite Ec, last_last. split; [auto|]. split; [split; discriminate|]. intros b y. rewrite H, L. tauto.
      * assert (La : (a < length (t_heap s))%nat) by (apply nth_error_Some; congruence). cbn [free_str]. rewrite nth_error_app1, Hx by auto. cbn [bind]. eexists. split; [reflexivity|].
        assert (Hn : forall b y, nth_error (upd (t_heap s ++ [Some f]) a None) b = Some (Some y) <-> b = length (t_heap s) /\ y = f).
        { intros b y. destruct (Nat.eq_dec b a) as [->|Nb].
          - rewrite nth_error_upd_eq by (rewrite app_length; cbn; lia). split; [discriminate|]. intros (-> & _). lia.
          - rewrite nth_error_upd_ne by auto. destruct (Nat.lt_ge_cases b (length (t_heap s))) as [Lb|Lb].
            + rewrite nth_error_app1 by auto. rewrite H. split; [intros (X & _); congruence|intros (-> & _); lia].
            + rewrite nth_error_app2 by auto. destruct (b - length (t_heap s))%nat as [|k] eqn:Ek; cbn; [|destruct k; cbn; split; [discriminate|intros (-> & _); lia|discriminate|intros (-> & _); lia]].
              split; [intros X; injection X as <-; split; [lia|auto]|intros (_ & ->); auto]. }
        unfold t_inv. cbn [t_use t_custom t_heap]. rewrite last_last. split; [|split; [auto|split; [split; discriminate|]]].
        -- unfold current_format, read_str. cbn [t_use t_heap]. rewrite (proj2 (Hn (length (t_heap s)) f)); auto. unfold format_after. rewrite last_last. auto.
        -- intros b y. rewrite Hn. split; [intros (-> & ->); auto|intros (X & Y); injection X as ->; injection Y as ->; auto].
    + cbn [bind free_str]. eexists. split; [reflexivity|].
      assert (L : last l None = None) by (destruct (last l None); auto; exfalso; destruct Cn as (_ & Cn); apply Cn; congruence).
      assert (Hn : forall b y, nth_error (t_heap s ++ [Some f]) b = Some (Some y) <-> b = length (t_heap s) /\ y = f).
      { intros b y. destruct (Nat.lt_ge_cases b (length (t_heap s))) as [Lb|Lb].
        + rewrite nth_error_app1 by auto. rewrite H. split; [intros (X & _); congruence|intros (-> & _); lia].
        + rewrite nth_error_app2 by auto. destruct (b - length (t_heap s))%nat as [|k] eqn:Ek; cbn; [|destruct k; cbn; split; [discriminate|intros (-> & _); lia|discriminate|intros (-> & _); lia]].
          split; [intros X; injection X as <-; split; [lia|auto]|intros (_ & ->); auto]. }
      unfold t_inv. cbn [t_use t_custom t_heap]. rewrite last_last. split; [|split; [auto|split; [split; discriminate|]]].
      * unfold current_format, read_str. cbn [t_use t_heap]. rewrite (proj2 (Hn (length (t_heap s)) f)); auto. unfold format_after. rewrite last_last. auto.
      * intros b y. rewrite Hn. split; [intros (-> & ->); auto|intros (X & Y); injection X as ->; injection Y as ->; auto].
  - destruct (t_custom s) as [a|] eqn:Ec.
    + assert (L : exists x, last l None = Some x) by (destruct (last l None) as [x|]; [eauto|destruct Cn as (Cn & _); exfalso; apply Cn; congruence]). destruct L as (x & L).
      assert (Hx : nth_error (t_heap s) a = Some (Some x)) by (apply H; auto). cbn [free_str]. rewrite Hx. cbn [bind]. eexists. split; [reflexivity|]. unfold t_inv. cbn [t_use t_custom t_heap]. rewrite last_last.
      split; [unfold current_format, format_after; cbn; rewrite last_last; reflexivity|]. split; [auto|]. split; [split; congruence|]. intros b y. split; [|intros (X & _); discriminate].
      destruct (Nat.eq_dec b a) as [->|Nb]; [rewrite nth_error_upd_eq by (apply nth_error_Some; congruence); discriminate|]. rewrite nth_error_upd_ne by auto. rewrite H. intros (X & _). congruence.
    + exists s. split; auto. assert (L : last l None = None) by (destruct (last l None); auto; exfalso; destruct Cn as (_ & Cn); apply Cn; congruence).
      unfold t_inv. rewrite Ec, last_last. split; [rewrite C; unfold format_after; rewrite last_last, L; auto|]. split; [auto|]. split; [split; congruence|]. intros b y. rewrite H, L. tauto.
Qed.
Lemma t_run_inv l : forall s pre, t_inv s pre -> exists s', t_run s l = Ok s' /\ t_inv s' (pre ++ l).
Proof.
  induction l as [|f l IH]; intros s pre I; cbn [t_run]; [exists s; rewrite app_nil_r; auto|].
  destruct (set_format_inv s pre f I) as (s1 & E & I1). rewrite E. cbn [bind]. destruct (IH s1 _ I1) as (s2 & E2 & I2). rewrite <- app_assoc in I2. eauto.
Qed.
Lemma t_start_inv : t_inv t_start [].
Proof. split; [reflexivity|]. split; [reflexivity|]. cbn. split; [tauto|]. intros [|a] x; cbn; split; [discriminate|intros (X & _); discriminate|discriminate|intros (X & _); discriminate]. Qed.
