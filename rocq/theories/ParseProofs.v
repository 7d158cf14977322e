(* Lemmas about the integer parsers *)
From Verif Require Import Base ParseModel ParseSpec.
From Coq Require Import ZifyBool.
Ltac Zify.zify_post_hook ::= Z.div_mod_to_equations.

Lemma g_isspace_blank c : g_isspace c = true <-> blank c.
Proof. unfold g_isspace, blank. lia. Qed.
Lemma isspace_blank c : isspace c = true <-> blank c \/ c = vtab.
Proof. unfold isspace, blank, vtab. lia. Qed.
Lemma g_isspace_isspace c : g_isspace c = true -> isspace c = true.
Proof. unfold g_isspace, isspace. lia. Qed.

Lemma alnum_digit c v : alnum c = Some v <-> digit c v.
Proof.
  unfold alnum, digit. split.
  - destruct ((48 <=? c) && (c <=? 57)) eqn:E1; [intros H; injection H as <-; lia|].
    destruct ((65 <=? c) && (c <=? 90)) eqn:E2; [intros H; injection H as <-; lia|].
    destruct ((97 <=? c) && (c <=? 122)) eqn:E3; [intros H; injection H as <-; lia|]. discriminate.
  - intros [(H & ->)|[(H & ->)|(H & ->)]].
    + replace ((48 <=? c) && (c <=? 57)) with true by lia. reflexivity.
    + replace ((48 <=? c) && (c <=? 57)) with false by lia. replace ((65 <=? c) && (c <=? 90)) with true by lia. reflexivity.
    + replace ((48 <=? c) && (c <=? 57)) with false by lia. replace ((65 <=? c) && (c <=? 90)) with false by lia.
      replace ((97 <=? c) && (c <=? 122)) with true by lia. reflexivity.
Qed.

Lemma digit_nonneg c v : digit c v -> 0 <= v.
Proof. unfold digit. lia. Qed.

(* ---------------- drop_while ---------------- *)

Lemma dw_split p s : exists l, s = l ++ drop_while p s /\ Forall (fun c => p c = true) l.
Proof.
  induction s as [|c s (l & E & F)]; [exists []; auto|]. cbn. destruct (p c) eqn:P.
  - exists (c :: l). cbn. rewrite <- E. auto.
  - exists []. auto.
Qed.

Lemma dw_head p s : match drop_while p s with [] => True | c :: _ => p c = false end.
Proof. induction s as [|c s IH]; cbn; auto. destruct (p c) eqn:P; auto. Qed.

Lemma dw_app p l s : match s with [] => True | c :: _ => p c = false end -> drop_while p (l ++ s) = drop_while p l ++ s.
Proof.
  intros H. induction l as [|c l IH]; cbn.
  - destruct s; auto. cbn. rewrite H. reflexivity.
  - destruct (p c); auto.
Qed.

Lemma dw_all p l : Forall (fun c => p c = true) l -> drop_while p l = [].
Proof. induction 1; cbn; auto. rewrite H. auto. Qed.

Lemma dw_nil p l : drop_while p l = [] -> Forall (fun c => p c = true) l.
Proof. induction l; cbn; [constructor|]. destruct (p a) eqn:E; [auto|discriminate]. Qed.

Lemma dw_idem p s : match s with [] => True | c :: _ => p c = false end -> drop_while p s = s.
Proof. destruct s; cbn; auto. intros ->. reflexivity. Qed.

(* the last character of a list *)
Lemma rev_last (s : list Z) d : match rev s with [] => s = [] | c :: _ => last s d = c end.
Proof.
  destruct (rev s) eqn:E.
  - rewrite <- (rev_involutive s), E. reflexivity.
  - rewrite <- (rev_involutive s), E. cbn. apply last_last.
Qed.

Lemma strstrip_eq s : s <> [] -> strstrip s = chomp (chug s).
Proof.
  intros H. unfold strstrip. destruct (g_isspace (hd 0 s) || g_isspace (last s 0)) eqn:E; auto.
  apply orb_false_iff in E. destruct E as (E1 & E2).
  assert (chug s = s) as ->.
  { apply dw_idem. destruct s; auto. }
  unfold chomp. rewrite dw_idem; [rewrite rev_involutive; reflexivity|].
  pose proof (rev_last s 0) as L. destruct (rev s); auto. rewrite <- L. auto.
Qed.

Lemma chomp_split s : exists r, s = chomp s ++ r /\ Forall (fun c => g_isspace c = true) r.
Proof.
  destruct (dw_split g_isspace (rev s)) as (l & E & F). exists (rev l). split.
  - unfold chomp. rewrite <- rev_app_distr, <- E, rev_involutive. reflexivity.
  - apply Forall_rev. auto.
Qed.

Lemma strip_split s : s <> [] -> exists l r, s = l ++ strstrip s ++ r /\ Forall (fun c => g_isspace c = true) l /\ Forall (fun c => g_isspace c = true) r.
Proof.
  intros H. rewrite strstrip_eq by auto. destruct (dw_split g_isspace s) as (l & E & F).
  destruct (chomp_split (chug s)) as (r & E2 & F2). exists l, r. rewrite <- E2. auto.
Qed.

(* solid: neither starts nor ends with white space, not empty *)
Definition solid (core : list Z) : Prop :=
  core <> [] /\ isspace (hd 0 core) = false /\ g_isspace (last core 0) = false.

Lemma strip_padded l core r s : padded l core r s -> solid core -> strstrip s = chug l ++ core.
Proof.
  intros (-> & FL & FR) (Hne & Hh & Hl). destruct core as [|c core]; [congruence|]. cbn [hd] in Hh.
  assert (g_isspace c = false) as Hg by (destruct (g_isspace c) eqn:G; auto; apply g_isspace_isspace in G; congruence).
  rewrite strstrip_eq by (destruct l; discriminate).
  unfold chug. rewrite dw_app by (cbn; auto). unfold chomp. rewrite app_assoc, rev_app_distr.
  assert (drop_while g_isspace (rev r ++ rev (drop_while g_isspace l ++ c :: core)) = rev (drop_while g_isspace l ++ c :: core)) as ->.
  { rewrite dw_app.
    - rewrite dw_all; [reflexivity|]. apply Forall_rev. eapply Forall_impl; [|apply FR]. intros a. apply g_isspace_blank.
    - pose proof (rev_last (drop_while g_isspace l ++ c :: core) 0) as L.
      destruct (rev (drop_while g_isspace l ++ c :: core)); auto. rewrite <- L.
      destruct (exists_last (l := c :: core) ltac:(discriminate)) as (q & x & E). rewrite E in *.
      rewrite app_assoc, last_last. rewrite last_last in Hl. auto. }
  apply rev_involutive.
Qed.

(* ---------------- digits ---------------- *)

Definition num_of (b : Z) (ds : list Z) (a : Z) : Z := fold_left (fun a d => b * a + d) ds a.

Lemma digits_num b s v : digits b s v <-> s <> [] /\ exists ds, Forall2 digit s ds /\ Forall (fun d => d < b) ds /\ v = num_of b ds 0.
Proof.
  split.
  - induction 1 as [c v D L|s c u v H (Hne & ds & F & L & E) D Lt].
    + split; [discriminate|]. exists [v]. repeat split; auto. cbn. lia.
    + split; [destruct s; discriminate|]. exists (ds ++ [v]). split; [apply Forall2_app; auto|]. split; [apply Forall_app; auto|].
      unfold num_of. rewrite fold_left_app. cbn. rewrite E. reflexivity.
  - intros (Hne & ds & F & L & ->). revert ds F L.
    induction s as [|c s IH] using rev_ind; [congruence|]. intros ds F L.
    apply Forall2_app_inv_l in F. destruct F as (ds1 & ds2 & F1 & F2 & ->).
    inversion F2 as [|? v ? ? D F3]; subst. inversion F3; subst.
    apply Forall_app in L. destruct L as (L1 & L2). apply Forall_inv in L2.
    destruct s as [|c0 s].
    + inversion F1; subst. cbn. replace (b * 0 + v) with v by lia. constructor; auto.
    + unfold num_of. rewrite fold_left_app. cbn [fold_left]. constructor; auto. apply IH; auto. discriminate.
Qed.

(* the accumulator represents a *)
Definition acc_of (a : Z) : option Z := if a <=? 2^64 - 1 then Some a else None.

Lemma acc_step b a v : 2 <= b <= 36 -> 0 <= a -> 0 <= v < b ->
  match acc_of a with
  | None => None
  | Some u => if (u >? (2^64 - 1) / b) || ((u =? (2^64 - 1) / b) && (v >? (2^64 - 1) mod b)) then None else Some (u * b + v)
  end = acc_of (b * a + v).
Proof.
  intros Hb Ha Hv. unfold acc_of.
  pose proof (Z.div_mod (2^64 - 1) b ltac:(lia)) as DM. pose proof (Z.mod_pos_bound (2^64 - 1) b ltac:(lia)) as MB.
  set (q := (2^64 - 1) / b) in *. set (r := (2^64 - 1) mod b) in *.
  assert (0 <= q) by nia.
  clearbody q r. set (M := 2^64 - 1) in *. assert (0 < M) by (subst M; lia). clearbody M.
  destruct (a <=? M) eqn:E.
  - destruct ((a >? q) || ((a =? q) && (v >? r))) eqn:C.
    + replace (b * a + v <=? M) with false; auto. symmetry. apply Z.leb_gt.
      apply orb_prop in C. destruct C as [C|C]; [|assert (a = q) by lia; subst; nia].
      assert (b * (q + 1) <= b * a) by nia. nia.
    + replace (b * a + v <=? M) with true; [f_equal; lia|]. symmetry. apply Z.leb_le.
      apply orb_false_iff in C. destruct C as (C1 & C2).
      destruct (Z.eq_dec a q); [subst; nia|]. assert (b * a <= b * (q - 1)) by nia. nia.
  - replace (b * a + v <=? M) with false; auto. symmetry. apply Z.leb_gt. nia.
Qed.

Definition not_digit (b : Z) (s : list Z) : Prop :=
  match s with [] => True | c :: _ => forall v, digit c v -> b <= v end.

Lemma scan_spec b (Hb : 2 <= b <= 36) : forall s a, 0 <= a ->
  exists ds pre rest, s = pre ++ rest /\ Forall2 digit pre ds /\ Forall (fun d => d < b) ds /\ not_digit b rest /\
    scan b (acc_of a) s = (acc_of (num_of b ds a), rest).
Proof.
  induction s as [|c s IH]; intros a Ha.
  - exists [], [], []. repeat split; auto.
  - cbn [scan]. destruct (alnum c) as [v|] eqn:A.
    + apply alnum_digit in A. pose proof (digit_nonneg _ _ A). destruct (v >=? b) eqn:G.
      * exists [], [], (c :: s). repeat split; auto. intros w W. apply alnum_digit in W, A. rewrite W in A. injection A as ->. lia.
      * cbv zeta. rewrite acc_step by lia.
        destruct (IH (b * a + v) ltac:(nia)) as (ds & pre & rest & E1 & E2 & E3 & E4 & E5).
        exists (v :: ds), (c :: pre), rest. repeat split; auto.
        -- rewrite E1. reflexivity.
        -- constructor; auto. lia.
    + exists [], [], (c :: s). repeat split; auto. intros w W. apply alnum_digit in W. congruence.
Qed.

Lemma scan_digits b (Hb : 2 <= b <= 36) : forall s ds a, 0 <= a -> Forall2 digit s ds -> Forall (fun d => d < b) ds ->
  scan b (acc_of a) s = (acc_of (num_of b ds a), []).
Proof.
  induction s as [|c s IH]; intros ds a Ha F L; inversion F as [|? v ? ds' D F']; subst; [reflexivity|].
  apply Forall_cons_iff in L. destruct L as (L1 & L2). cbn [scan]. pose proof (digit_nonneg _ _ D).
  apply alnum_digit in D. rewrite D. replace (v >=? b) with false by lia. cbv zeta. rewrite acc_step by lia.
  rewrite IH with (ds := ds'); auto. nia.
Qed.

Lemma scan_full b (Hb : 2 <= b <= 36) s v : digits b s v -> scan b (Some 0) s = (acc_of v, []).
Proof.
  intros D. apply digits_num in D. destruct D as (Hne & ds & F & L & ->).
  change (Some 0) with (acc_of 0). apply scan_digits; auto. lia.
Qed.

Lemma num_nonneg b ds : 0 <= b -> forall a, 0 <= a -> Forall (fun d => 0 <= d) ds -> 0 <= num_of b ds a.
Proof. intros Hb. induction ds; intros x Hx F; cbn; auto. inversion F; subst. apply IHds; auto. nia. Qed.

Lemma digits_nonneg b s v : 2 <= b -> digits b s v -> 0 <= v.
Proof. intros Hb. induction 1 as [c v D L|s c u v H IH D L]; apply digit_nonneg in D; nia. Qed.

(* scanning a whole string: end reached and something consumed *)
Lemma scan_all b (Hb : 2 <= b <= 36) s m e : scan b (Some 0) s = (m, e) -> e = [] -> (length e =? length s)%nat = false ->
  exists v, digits b s v /\ m = acc_of v.
Proof.
  intros E -> L. destruct (scan_spec b Hb s 0 ltac:(lia)) as (ds & pre & rest & E1 & E2 & E3 & E4 & E5).
  change (acc_of 0) with (Some 0) in E5. rewrite E in E5. injection E5 as -> <-. rewrite app_nil_r in E1. subst pre.
  exists (num_of b ds 0). split; auto. apply digits_num. split; [|eauto]. intros ->. discriminate L.
Qed.

(* ---------------- magnitude ---------------- *)

Lemma digits_head b s v : digits b s v -> exists c w t, s = c :: t /\ digit c w /\ w < b.
Proof.
  intros D. apply digits_num in D. destruct D as (Hne & ds & F & L & _). destruct s as [|c t]; [congruence|].
  inversion F; subst. apply Forall_inv in L. eauto 6.
Qed.
Lemma digits_last b s v : digits b s v -> exists c w t, s = t ++ [c] /\ digit c w.
Proof. destruct 1 as [c v D L|s c u v H D L]; [exists c, v, []|exists c, v, s]; auto. Qed.

Lemma mag_head base s v : magnitude base s v -> exists c w t, s = c :: t /\ digit c w.
Proof.
  intros [(H & D)|[(H & x & t & -> & Hx & D)|[(H & K & D)|(H & K & D)]]].
  2: exists 48, 0, (x :: t); split; auto; left; lia.
  all: apply digits_head in D; destruct D as (c & w & t & -> & D & _); eauto.
Qed.
Lemma mag_last base s v : magnitude base s v -> exists c w t, s = t ++ [c] /\ digit c w.
Proof.
  intros [(H & D)|[(H & x & t & -> & Hx & D)|[(H & K & D)|(H & K & D)]]]; apply digits_last in D;
    destruct D as (c & w & u & -> & D); try solve [eauto].
  exists c, w, (48 :: x :: u). auto.
Qed.

Lemma mag_nonneg base s v : magnitude base s v -> 0 <= v.
Proof.
  intros [(H & D)|[(H & x & t & -> & Hx & D)|[(H & K & D)|(H & K & D)]]]; eapply digits_nonneg; try apply D; lia.
Qed.

Definition scanned (base : Z) (t1 : list Z) : Z * list Z * bool :=
  match t1 with
  | c0 :: r =>
      if c0 =? 48 then
        if ((base =? 0) || (base =? 16)) &&
           match r with x :: _ => (x =? 88) || (x =? 120) | [] => false end
        then (16, tl r, true)
        else if base =? 0 then (8, t1, false) else (base, t1, false)
      else if base =? 0 then (10, t1, false) else (base, t1, false)
  | [] => if base =? 0 then (10, t1, false) else (base, t1, false)
  end.

Definition good_base (base : Z) : Prop := base = 0 \/ 2 <= base <= 36.

Lemma digits_x b x t v : b <= 16 -> (x = 88 \/ x = 120) -> ~ digits b (48 :: x :: t) v.
Proof.
  intros Hb Hx D. apply digits_num in D. destruct D as (_ & ds & F & L & _).
  inversion F as [|? ? ? ? _ F2]; subst. inversion F2 as [|? w ? ? D2 _]; subst.
  apply Forall_inv_tail in L. apply Forall_inv in L. unfold digit in D2. lia.
Qed.

(* the part after the sign *)
Lemma scanned_mag base s v : magnitude base s v ->
  exists b t p, scanned base s = (b, t, p) /\ scan b (Some 0) t = (acc_of v, []) /\ (length (@nil Z) =? length t)%nat = false /\ good_base base.
Proof.
  intros M. assert (good_base base) as GB by (destruct M as [M|[M|[M|M]]]; unfold good_base; lia).
  destruct M as [(H & D)|[(H & x & t & -> & Hx & D)|[(H & K & D)|(H & K & D)]]].
  - destruct (digits_head _ _ _ D) as (c & w & t & E & Dc & Lc).
    exists base, s, false. split; [|split; [apply scan_full; auto|split; [rewrite E; reflexivity|auto]]].
    unfold scanned. rewrite E. destruct (c =? 48) eqn:C.
    + replace (base =? 0) with false by lia. cbn [orb].
      destruct (base =? 16) eqn:B; cbn [andb]; auto.
      destruct t as [|x t]; auto. destruct ((x =? 88) || (x =? 120)) eqn:X; auto.
      exfalso. apply (digits_x base x t v); try lia. assert (c = 48) by lia. subst. auto.
    + replace (base =? 0) with false by lia. reflexivity.
  - exists 16, t, true. split; [|split; [apply scan_full; auto; lia|split; [destruct (digits_head _ _ _ D) as (? & ? & ? & -> & _); reflexivity|auto]]].
    unfold scanned. change (48 =? 48) with true. cbv iota. replace ((base =? 0) || (base =? 16)) with true by lia.
    replace ((x =? 88) || (x =? 120)) with true by lia. reflexivity.
  - exists 8, s, false. split; [|split; [apply scan_full; auto; lia|split; [destruct (digits_head _ _ _ D) as (? & ? & ? & -> & _); reflexivity|auto]]].
    destruct K as (t & ->). unfold scanned. change (48 =? 48) with true. cbv iota. subst base. change (0 =? 0) with true. cbn [orb].
    destruct t as [|x t]; auto. destruct ((x =? 88) || (x =? 120)) eqn:X; auto.
    exfalso. apply (digits_x 8 x t v); try lia. auto.
  - exists 10, s, false. split; [|split; [apply scan_full; auto; lia|split; [destruct (digits_head _ _ _ D) as (? & ? & ? & -> & _); reflexivity|auto]]].
    destruct s as [|c t]; [subst; reflexivity|]. unfold scanned. replace (c =? 48) with false.
    + replace (base =? 0) with true by lia. reflexivity.
    + symmetry. apply Z.eqb_neq. intros ->. apply K. exists t. auto.
Qed.

Lemma mag_scanned base s b t p m : good_base base -> scanned base s = (b, t, p) ->
  scan b (Some 0) t = (m, []) -> (length (@nil Z) =? length t)%nat = false ->
  exists v, magnitude base s v /\ m = acc_of v.
Proof.
  intros GB S E L. unfold good_base in GB.
  assert (forall x, p = false -> b = x -> t = s -> 2 <= x <= 36 -> (forall v, digits x s v -> magnitude base s v) ->
    exists v, magnitude base s v /\ m = acc_of v) as G.
  { intros x -> -> -> Hx HM. destruct (scan_all x Hx s m [] E eq_refl L) as (v & D & ->). eauto. }
  unfold scanned in S. destruct s as [|c r].
  - exfalso. destruct (base =? 0); injection S as <- <- <-; discriminate L.
  - destruct (c =? 48) eqn:C.
    + assert (c = 48) by lia. subst c.
      destruct (((base =? 0) || (base =? 16)) && match r with x :: _ => (x =? 88) || (x =? 120) | [] => false end) eqn:X.
      * injection S as <- <- <-. destruct r as [|x r]; [rewrite andb_false_r in X; discriminate|]. cbn [tl] in *.
        destruct (scan_all 16 ltac:(lia) r m [] E eq_refl L) as (v & D & ->). exists v. split; auto. right. left.
        split; [lia|]. exists x, r. repeat split; auto. lia.
      * destruct (base =? 0) eqn:B; injection S as <- <- <-.
        -- apply (G 8); auto; [lia|]. intros v D. right. right. left. split; [lia|]. split; auto. exists r; auto.
        -- apply (G base); auto; [lia|]. intros v D. left. split; auto. lia.
    + destruct (base =? 0) eqn:B; injection S as <- <- <-.
      * apply (G 10); auto; [lia|]. intros v D. right. right. right. split; [lia|]. split; auto. intros (? & K). injection K as -> _. lia.
      * apply (G base); auto; [lia|]. intros v D. left. split; auto. lia.
Qed.

(* ---------------- strto ---------------- *)

Definition signed (neg : bool) (base : Z) (core : list Z) (m : Z) : Prop :=
  if neg then minus_numeral base core m else plus_numeral base core m.

Lemma digit_not_sign c w : digit c w -> (c =? 45) = false /\ (c =? 43) = false.
Proof. unfold digit. lia. Qed.

Lemma signed_solid neg base core m : signed neg base core m -> solid core.
Proof.
  intros S. assert (exists c t, core = c :: t /\ (c = 43 \/ c = 45 \/ exists w, digit c w)) as (c & t & E & H).
  { destruct neg; cbn in S.
    - destruct S as (t & -> & _). exists 45, t. auto.
    - destruct S as [M|(t & -> & _)]; [|exists 43, t; auto]. apply mag_head in M. destruct M as (c & w & t & -> & D). exists c, t. eauto. }
  assert (exists q x w, core = q ++ [x] /\ digit x w) as (q & x & w & E2 & H2).
  { destruct neg; cbn in S.
    - destruct S as (u & -> & M). apply mag_last in M. destruct M as (x & w & q & -> & D). exists (45 :: q), x, w. auto.
    - destruct S as [M|(u & -> & M)]; apply mag_last in M; destruct M as (x & w & q & -> & D); [exists q, x, w; auto|]. exists (43 :: q), x, w. auto. }
  split; [congruence|]. split.
  - rewrite E. cbn. unfold isspace. destruct H as [->|[->|(w' & D)]]; auto. unfold digit in D. lia.
  - rewrite E2, last_last. unfold g_isspace. unfold digit in H2. lia.
Qed.

Lemma strto_unfold lc s base : good_base base ->
  strto lc s base =
    let none := mkNum false (Some 0) (Some s) (no_number_einval lc) in
    match drop_while isspace s with
    | [] => none
    | c :: t =>
        let (neg, t1) := if c =? 45 then (true, t) else if c =? 43 then (false, t) else (false, c :: t) in
        let '(b, t2, pfx) := scanned base t1 in
        let (mag, e) := scan b (Some 0) t2 in
        if (length e =? length t2)%nat then
          if pfx then mkNum false (Some 0) (Some (tl t1)) false else none
        else mkNum neg mag (Some e) false
    end.
Proof.
  intros GB. unfold strto. replace ((base <? 0) || (base =? 1) || (base >? 36)) with false by (unfold good_base in GB; lia). reflexivity.
Qed.

Lemma strto_signed lc l neg base core m : Forall (fun c => isspace c = true) l -> signed neg base core m ->
  strto lc (l ++ core) base = mkNum neg (acc_of m) (Some []) false.
Proof.
  intros FL S. destruct (signed_solid _ _ _ _ S) as (Hne & Hh & _).
  assert (exists s, magnitude base s m /\ match core with [] => False | c :: t =>
     (if c =? 45 then (true, t) else if c =? 43 then (false, t) else (false, c :: t)) = (neg, s) end) as (s & M & C).
  { destruct neg; cbn in S.
    - destruct S as (t & -> & M). exists t. auto.
    - destruct S as [M|(t & -> & M)]; [|exists t; auto]. exists core. split; auto.
      destruct (mag_head _ _ _ M) as (c & w & t & -> & D). destruct (digit_not_sign _ _ D) as (-> & ->). reflexivity. }
  destruct (scanned_mag base s m M) as (b & t & p & E1 & E2 & E3 & GB).
  rewrite strto_unfold by auto. cbv zeta. rewrite dw_app by (destruct core; [congruence|exact Hh]). rewrite dw_all by auto. cbn [app].
  destruct core as [|c ct]; [contradiction|]. rewrite C, E1, E2, E3. reflexivity.
Qed.

(* what a successful conversion of a whole string means *)
Lemma strto_inv lc t base n : strto lc t base = n -> at_end (n_end n) = true ->
  (exists l core neg m, t = l ++ core /\ Forall (fun c => isspace c = true) l /\ signed neg base core m /\
     n = mkNum neg (acc_of m) (Some []) false) \/
  (t = [] /\ good_base base /\ n = mkNum false (Some 0) (Some []) (no_number_einval lc)) \/
  (t = [] /\ ~ good_base base /\ n_mag n = Some 0 /\ n_einval n = true).
Proof.
  intros E A. destruct ((base <? 0) || (base =? 1) || (base >? 36)) eqn:GB.
  - right. right. unfold strto in E. rewrite GB in E. subst n. cbn [n_end] in A. destruct (bad_base_end lc); [|discriminate].
    destruct t; [|discriminate]. split; auto. split; [unfold good_base; lia|]. auto.
  - assert (good_base base) as G by (unfold good_base; lia). rewrite strto_unfold in E by auto. cbv zeta in E.
    destruct (dw_split isspace t) as (l & Et & FL). destruct (drop_while isspace t) as [|c r] eqn:DW.
    + right. left. subst n. cbn in A. destruct t; [|discriminate]. auto.
    + destruct (if c =? 45 then (true, r) else if c =? 43 then (false, r) else (false, c :: r)) as (neg, t1) eqn:C.
      destruct (scanned base t1) as ((b, t2), p) eqn:S. destruct (scan b (Some 0) t2) as (m, e) eqn:SC.
      destruct (length e =? length t2)%nat eqn:L.
      * destruct p.
        -- exfalso. subst n. cbn in A. unfold scanned in S. destruct t1 as [|c0 q]; [destruct (base =? 0); discriminate|].
           destruct (c0 =? 48); [|destruct (base =? 0); discriminate].
           destruct q as [|x q]; [|discriminate A]. rewrite andb_false_r in S. destruct (base =? 0); discriminate.
        -- subst n. cbn in A. destruct t; [|discriminate]. discriminate DW.
      * subst n. cbn in A. destruct e; [|discriminate]. left.
        destruct (mag_scanned base t1 b t2 p m G S SC L) as (v & M & ->).
        exists l, (c :: r), neg, v. repeat split; auto.
        destruct (c =? 45) eqn:C1; [injection C as <- <-; assert (c = 45) by lia; subst; exists r; auto|].
        destruct (c =? 43) eqn:C2; injection C as <- <-; [assert (c = 43) by lia; subst; right; exists r; auto|left; auto].
Qed.

(* ---------------- the parsers ---------------- *)

Lemma signed_good neg base core m : signed neg base core m -> good_base base /\ 0 <= m.
Proof.
  intros S. assert (exists s, magnitude base s m) as (s & M).
  { destruct neg; cbn in S; [destruct S as (t & _ & M); eauto|]. destruct S as [M|(t & _ & M)]; eauto. }
  split; [|eapply mag_nonneg; eauto]. destruct M as [M|[M|[M|M]]]; unfold good_base; lia.
Qed.

Lemma forall_space l : Forall (fun c => blank c \/ c = vtab) l <-> Forall (fun c => isspace c = true) l.
Proof. split; apply Forall_impl; intros a; apply isspace_blank. Qed.
Lemma forall_gspace l : Forall blank l <-> Forall (fun c => g_isspace c = true) l.
Proof. split; apply Forall_impl; intros a; apply g_isspace_blank. Qed.
Lemma forall_g_space l : Forall (fun c => g_isspace c = true) l -> Forall (fun c => isspace c = true) l.
Proof. apply Forall_impl. apply g_isspace_isspace. Qed.

Lemma dw_forall (P : Z -> Prop) p s : Forall P s -> Forall P (drop_while p s).
Proof. induction 1; cbn; auto. destruct (p x); auto. Qed.

(* the stripped string is blank only if the string is *)
Lemma strip_nil s : s <> [] -> (strstrip s = [] <-> Forall blank s).
Proof.
  intros H. rewrite forall_gspace. split.
  - intros E. destruct (strip_split s H) as (l & r & E2 & F1 & F2). rewrite E in E2. cbn in E2. rewrite E2. apply Forall_app. auto.
  - intros F. rewrite strstrip_eq by auto. unfold chug. rewrite dw_all by auto. reflexivity.
Qed.

Definition valued (s core : list Z) (base : Z) (neg : bool) (m : Z) : Prop :=
  exists l r, padded l core r s /\ signed neg base core m.

Lemma strtoll_spec lc s base ll er e ei : s <> [] -> strtoll lc (strstrip s) base = (ll, er, e, ei) ->
  (at_end e && negb (((ll =? 2^63 - 1) || (ll =? -2^63)) && er) && negb ((ll =? 0) && ei) = true <->
   (exists core neg m, valued s core base neg m /\ ll = (if neg then - m else m) /\ in_s64 ll) \/
   (Forall blank s /\ good_base base /\ ll = 0 /\ no_number_einval lc = false)).
Proof.
  intros Hs E. unfold strtoll in E. split.
  - intros A. apply andb_prop in A. destruct A as (A & A3). apply andb_prop in A. destruct A as (A1 & A2).
    destruct (strip_split s Hs) as (l1 & r1 & E1 & F1 & F2).
    assert (n_end (strto lc (strstrip s) base) = e /\ n_einval (strto lc (strstrip s) base) = ei) as (Ee & Ei).
    { destruct (n_mag (strto lc (strstrip s) base)); [|injection E; auto].
      destruct (n_neg _); [destruct (_ >? _); injection E; auto|destruct (_ >? _); injection E; auto]. }
    destruct (strto_inv lc (strstrip s) base _ eq_refl) as [(l & core & neg & m & Et & FL & S & En)|[(Et & GB & En)|(Et & GB & En & Ein)]].
    + rewrite Ee. auto.
    + left. exists core, neg, m. rewrite En in E. cbn [n_mag n_neg n_end n_einval] in E. destruct (signed_good _ _ _ _ S) as (_ & Hm).
      split.
      { exists (l1 ++ l), r1. split; auto. split; [rewrite E1, Et, <- !app_assoc; reflexivity|].
        rewrite forall_space, forall_gspace. split; auto. apply Forall_app. split; auto. apply forall_g_space; auto. }
      unfold acc_of in E. destruct (m <=? 2^64 - 1) eqn:Q.
      * destruct neg.
        -- destruct (m >? 2^63) eqn:W; injection E as <- <- _ _; [exfalso; vm_compute in A2; discriminate|]. split; auto. unfold in_s64. lia.
        -- destruct (m >? 2^63 - 1) eqn:W; injection E as <- <- _ _; [exfalso; vm_compute in A2; discriminate|]. split; auto. unfold in_s64. lia.
      * exfalso. destruct neg; injection E as <- <- _ _; vm_compute in A2; discriminate.
    + right. rewrite En in E, Ei. cbn [n_mag n_neg n_end n_einval] in E, Ei. change (0 >? 2^63 - 1) with false in E. injection E as <- <- _ _.
      split; [apply strip_nil; auto|]. split; auto. split; auto. subst ei. destruct (no_number_einval lc); [vm_compute in A3; discriminate|reflexivity].
    + exfalso. rewrite En in E. rewrite Ein in Ei. subst ei. destruct (n_neg _); change (0 >? 2^63 - 1) with false in E; change (0 >? 2^63) with false in E;
        injection E as <- _ _; vm_compute in A3; discriminate.
  - intros [(core & neg & m & (l & r & P & S) & Ell & R)|(FB & GB & Ell & Hc)].
    + rewrite (strip_padded l core r s P (signed_solid _ _ _ _ S)) in E.
      rewrite (strto_signed lc (chug l) neg base core m) in E; auto.
      2:{ apply dw_forall. apply forall_space. apply P. }
      cbn [n_mag n_neg n_end n_einval] in E. destruct (signed_good _ _ _ _ S) as (_ & Hm). unfold in_s64 in R.
      unfold acc_of in E. replace (m <=? 2^64 - 1) with true in E by (destruct neg; lia). destruct neg.
      * replace (m >? 2^63) with false in E by lia. injection E as _ <- <- <-. cbn [at_end]. rewrite !andb_false_r. reflexivity.
      * replace (m >? 2^63 - 1) with false in E by lia. injection E as _ <- <- <-. cbn [at_end]. rewrite !andb_false_r. reflexivity.
    + apply (strip_nil s Hs) in FB. rewrite FB in E. rewrite strto_unfold in E by auto. cbn [drop_while] in E. cbv zeta in E.
      cbn [n_mag n_neg n_end n_einval] in E. change (0 >? 2^63 - 1) with false in E. injection E as _ <- <- <-. rewrite Hc, !andb_false_r. reflexivity.
Qed.

Lemma strtoull_spec lc s base ll er e ei : s <> [] -> strtoull lc (strstrip s) base = (ll, er, e, ei) ->
  (hd 0 (strstrip s) <> 45 /\ at_end e && negb ((ll =? 2^64 - 1) && er) && negb ((ll =? 0) && ei) = true <->
   (exists core, valued s core base false ll /\ in_u64 ll) \/
   (exists core l r m, padded l core r s /\ signed true base core m /\ In vtab l /\ in_u64 m /\ ll = (- m) mod 2^64) \/
   (Forall blank s /\ good_base base /\ ll = 0 /\ no_number_einval lc = false)).
Proof.
  intros Hs E. unfold strtoull in E.
  assert (forall l, Forall (fun c => isspace c = true) l -> ~ In vtab l -> Forall (fun c => g_isspace c = true) l) as NV.
  { intros l F N. rewrite Forall_forall in *. intros x Hx. specialize (F x Hx). apply isspace_blank in F. apply g_isspace_blank.
    destruct F; auto. subst. contradiction. }
  split.
  - intros (Hh & A). apply andb_prop in A. destruct A as (A & A3). apply andb_prop in A. destruct A as (A1 & A2).
    destruct (strip_split s Hs) as (l1 & r1 & E1 & F1 & F2).
    assert (n_end (strto lc (strstrip s) base) = e /\ n_einval (strto lc (strstrip s) base) = ei) as (Ee & Ei).
    { destruct (n_mag (strto lc (strstrip s) base)); injection E; auto. }
    destruct (strto_inv lc (strstrip s) base _ eq_refl) as [(l & core & neg & m & Et & FL & S & En)|[(Et & GB & En)|(Et & GB & En & Ein)]].
    + rewrite Ee. auto.
    + rewrite En in E. cbn [n_mag n_neg n_end n_einval] in E. destruct (signed_good _ _ _ _ S) as (_ & Hm).
      assert (padded (l1 ++ l) core r1 s) as P.
      { split; [rewrite E1, Et, <- !app_assoc; reflexivity|].
        rewrite forall_space, forall_gspace. split; auto. apply Forall_app. split; auto. apply forall_g_space; auto. }
      unfold acc_of in E. destruct (m <=? 2^64 - 1) eqn:Q.
      2:{ exfalso. injection E as <- <- _ _. vm_compute in A2. discriminate. }
      injection E as <- _ _ _. destruct neg.
      * right. left. exists core, (l1 ++ l), r1, m. split; auto. split; auto.
        split; [|split; [unfold in_u64; lia|reflexivity]].
        apply in_or_app. right. destruct (in_dec Z.eq_dec vtab l) as [?|N]; auto. exfalso.
        pose proof (NV l FL N) as FG. apply Hh. rewrite Et.
        (* l is blank, so the stripped string starts with the sign *)
        assert (l = []) as ->.
        { destruct l as [|c l]; auto. exfalso. apply Forall_inv in FG.
          assert (match strstrip s with [] => True | c :: _ => g_isspace c = false end) as K.
          { rewrite strstrip_eq by auto. pose proof (dw_head g_isspace s) as K. fold (chug s) in K.
            destruct (chomp_split (chug s)) as (r & Er & _). destruct (chomp (chug s)) as [|x u]; auto. rewrite Er in K. exact K. }
          rewrite Et in K. cbn [app] in K. congruence. }
        cbn [app]. destruct S as (u & -> & _). reflexivity.
      * left. exists core. split; [|unfold in_u64; lia]. exists (l1 ++ l), r1. auto.
    + right. right. rewrite En in E, Ei. cbn [n_mag n_neg n_end n_einval] in E, Ei. injection E as <- <- _ _.
      split; [apply strip_nil; auto|]. split; auto. split; auto. subst ei. destruct (no_number_einval lc); [vm_compute in A3; discriminate|reflexivity].
    + exfalso. rewrite En in E. rewrite Ein in Ei. subst ei. injection E as <- _ _.
      destruct (n_neg _); vm_compute in A3; discriminate.
  - intros [(core & (l & r & P & S) & R)|[(core & l & r & m & P & S & V & R & Ell)|(FB & GB & Ell & Hc)]].
    + rewrite (strip_padded l core r s P (signed_solid _ _ _ _ S)) in *.
      rewrite (strto_signed lc (chug l) false base core ll) in E; auto.
      2:{ apply dw_forall. apply forall_space. apply P. }
      cbn [n_mag n_neg n_end n_einval] in E. unfold in_u64 in R.
      unfold acc_of in E. replace (ll <=? 2^64 - 1) with true in E by lia. injection E as <- <- <-. cbn [at_end].
      split; [|rewrite !andb_false_r; reflexivity].
      assert (Forall (fun c => isspace c = true) (chug l)) as FC by (apply dw_forall; apply forall_space; apply P).
      destruct (chug l) as [|c q]; cbn [app hd].
      * destruct S as [M|(t & -> & M)]; [|cbn; lia]. destruct (mag_head _ _ _ M) as (c & w & t & -> & D). cbn. unfold digit in D. lia.
      * apply Forall_inv in FC. intros ->. discriminate.
    + rewrite (strip_padded l core r s P (signed_solid _ _ _ _ S)) in *.
      rewrite (strto_signed lc (chug l) true base core m) in E; auto.
      2:{ apply dw_forall. apply forall_space. apply P. }
      cbn [n_mag n_neg n_end n_einval] in E. unfold in_u64 in R.
      unfold acc_of in E. replace (m <=? 2^64 - 1) with true in E by lia. injection E as _ <- <- <-. cbn [at_end].
      split; [|rewrite !andb_false_r; reflexivity].
      assert (Forall (fun c => isspace c = true) (chug l)) as FC by (apply dw_forall; apply forall_space; apply P).
      assert (In vtab (chug l)) as VC.
      { destruct (dw_split g_isspace l) as (q & Eq & FQ). rewrite Eq in V. apply in_app_or in V. destruct V as [V|V]; auto.
        rewrite Forall_forall in FQ. specialize (FQ _ V). discriminate. }
      destruct (chug l) as [|c q]; [destruct VC|]. cbn [app hd]. apply Forall_inv in FC. intros ->. discriminate.
    + apply (strip_nil s Hs) in FB. rewrite FB in *. rewrite strto_unfold in E by auto. cbn [drop_while] in E. cbv zeta in E.
      cbn [n_mag n_neg n_end n_einval] in E. injection E as _ <- <- <-. rewrite Hc, !andb_false_r. split; [cbn; lia|reflexivity].
Qed.
