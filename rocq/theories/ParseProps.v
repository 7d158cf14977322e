(* Properties C29-C30: parsing integers *)
From Verif Require Import Base ParseModel ParseSpec ParseProofs.
From Coq Require Import ZifyBool.
Ltac Zify.zify_post_hook ::= Z.div_mod_to_equations.

(* the C library on which strings of white space are numbers *)
Definition glibc : libc := mkLibc false false.

(* the string is a number with white space around it *)
Definition is_number (base : Z) (s : list Z) (v : Z) : Prop :=
  exists l core r, padded l core r s /\ numeral base core v.

Definition is_unsigned (base : Z) (s : list Z) (v : Z) : Prop :=
  exists l core r, padded l core r s /\ plus_numeral base core v.

(* the exception: white space only is taken for a zero (unless the library sets errno) *)
Definition blank_zero (lc : libc) (base : Z) (s : list Z) (v : Z) : Prop :=
  s <> [] /\ Forall blank s /\ (base = 0 \/ 2 <= base <= 36) /\ no_number_einval lc = false /\ v = 0.

(* the exception for unsigned numbers: a minus behind white space with a vertical tab in it; the
   value is taken modulo 2^64 *)
Definition vtab_minus (base : Z) (s : list Z) (v : Z) : Prop :=
  exists l core r m, padded l core r s /\ In vtab l /\ minus_numeral base core m /\ in_u64 m /\ v = (- m) mod 2^64.

Lemma number_signed base s v :
  is_number base s v <-> exists core neg m, valued s core base neg m /\ v = (if neg then - m else m).
Proof.
  split.
  - intros (l & core & r & P & [N|N]).
    + exists core, false, v. split; auto. exists l, r. auto.
    + exists core, true, (- v). split; [|lia]. exists l, r. auto.
  - intros (core & neg & m & (l & r & P & S) & ->). exists l, core, r. split; auto. destruct neg; [right|left]; auto.
    rewrite Z.opp_involutive. auto.
Qed.

Lemma parse_int64_iff lc s base old v :
  (parse_int64 lc (Some s) base (Some old) = (true, Some v) <->
   (is_number base s v /\ in_s64 v) \/ blank_zero lc base s v) /\
  (fst (parse_int64 lc (Some s) base (Some old)) = false -> snd (parse_int64 lc (Some s) base (Some old)) = Some old).
Proof.
  destruct s as [|c t] eqn:Es.
  - split; [|auto]. split; [discriminate|]. intros [(N & _)|(N & _)]; [|congruence]. exfalso.
    destruct N as (l & core & r & (P & _) & N). destruct l; [|discriminate]. destruct core; [|discriminate].
    destruct N as [[M|(t & K & _)]|(t & K & _)]; try discriminate. apply mag_head in M. destruct M as (? & ? & ? & K & _). discriminate.
  - rewrite <- Es. assert (s <> []) as Hs by congruence. unfold parse_int64. rewrite Es. rewrite <- Es.
    destruct (strtoll lc (strstrip s) base) as (((ll, er), e), ei) eqn:E.
    pose proof (strtoll_spec lc s base ll er e ei Hs E) as K.
    destruct (at_end e && _ && _) eqn:A.
    + split; [|discriminate]. cbn [store].
      assert (forall x, (is_number base s x /\ in_s64 x) \/ blank_zero lc base s x <-> x = ll) as U.
      { destruct (proj1 K eq_refl) as [(core & neg & m & V & Ell & R)|(FB & GB & Ell & Hc)].
        - intros x. split.
          + intros [(N & Rx)|(_ & FB & _)].
            * apply number_signed in N. destruct N as (core' & neg' & m' & V' & ->).
              (* two readings of the same string *)
              destruct V as (l & r & P & S). destruct V' as (l' & r' & P' & S').
              assert (strto lc (strstrip s) base = mkNum neg (acc_of m) (Some []) false) as E1.
              { rewrite (strip_padded l core r s P (signed_solid _ _ _ _ S)). apply strto_signed; auto. apply dw_forall. apply forall_space. apply P. }
              assert (strto lc (strstrip s) base = mkNum neg' (acc_of m') (Some []) false) as E2.
              { rewrite (strip_padded l' core' r' s P' (signed_solid _ _ _ _ S')). apply strto_signed; auto. apply dw_forall. apply forall_space. apply P'. }
              rewrite E1 in E2. injection E2 as <- Em. unfold in_s64 in *. unfold acc_of in Em.
              destruct (m <=? 2^64 - 1) eqn:Q1; destruct (m' <=? 2^64 - 1) eqn:Q2; try discriminate; destruct neg; try (injection Em as ->); subst; auto; lia.
            * exfalso. destruct V as (l & r & P & S). apply (strip_nil s Hs) in FB.
              rewrite (strip_padded l core r s P (signed_solid _ _ _ _ S)) in FB. apply app_eq_nil in FB. destruct FB as (_ & ->).
              destruct (signed_solid _ _ _ _ S) as (? & _). congruence.
          + intros ->. left. split; auto. apply number_signed. exists core, neg, m. auto.
        - intros x. split.
          + intros [(N & Rx)|(_ & _ & _ & _ & ->)]; auto. exfalso.
            apply number_signed in N. destruct N as (core & neg & m & (l & r & P & S) & _). apply (strip_nil s Hs) in FB.
            rewrite (strip_padded l core r s P (signed_solid _ _ _ _ S)) in FB. apply app_eq_nil in FB. destruct FB as (_ & ->).
            destruct (signed_solid _ _ _ _ S) as (? & _). congruence.
          + intros ->. right. repeat split; auto. }
      rewrite U. split; [intros Q; injection Q; auto|intros ->; auto].
    + split; [|auto]. split; [discriminate|]. intros H. exfalso.
      assert (is_number base s v /\ in_s64 v \/ blank_zero lc base s v -> False) as X; [|auto].
      clear H. intros H.
      (* the value delivered by strtoll is v *)
      assert (ll = v) as Ell.
      { destruct H as [(N & R)|(_ & FB & GB & Hc & ->)].
        - apply number_signed in N. destruct N as (core & neg & m & (l & r & P & S) & ->).
          unfold strtoll in E. rewrite (strip_padded l core r s P (signed_solid _ _ _ _ S)) in E.
          rewrite (strto_signed lc (chug l) neg base core m) in E; auto.
          2:{ apply dw_forall. apply forall_space. apply P. }
          cbn [n_mag n_neg n_end n_einval] in E. destruct (signed_good _ _ _ _ S) as (_ & Hm). unfold in_s64 in R.
          unfold acc_of in E. replace (m <=? 2^64 - 1) with true in E by (destruct neg; lia). destruct neg.
          + replace (m >? 2^63) with false in E by lia. injection E as <- _ _ _. auto.
          + replace (m >? 2^63 - 1) with false in E by lia. injection E as <- _ _ _. auto.
        - apply (strip_nil s Hs) in FB. unfold strtoll in E. rewrite FB in E. rewrite strto_unfold in E by auto. cbn [drop_while] in E. cbv zeta in E.
          cbn [n_mag n_neg n_end n_einval] in E. change (0 >? 2^63 - 1) with false in E. injection E as <- _ _ _. auto. }
      subst ll. enough (false = true) by discriminate. apply K.
      destruct H as [(N & R)|(_ & FB & GB & Hc & ->)]; [left|right; auto].
      apply number_signed in N. destruct N as (core & neg & m & V & Ev). exists core, neg, m. auto.
Qed.

(* ------------------------------------------------------------------ C29 *)
(* A string of spaces is not a number, but is parsed as zero *)
Theorem C29_parse_int_refuted : exists s,
  parse_int64 glibc (Some s) 10 (Some 7) = (true, Some 0) /\ parse_int glibc (Some s) 10 (Some 7) = (true, Some 0) /\
  forall base v, ~ is_number base s v.
Proof.
  exists [32; 32]. split; [reflexivity|]. split; [reflexivity|]. intros base v N.
  apply number_signed in N. destruct N as (core & neg & m & (l & r & (P & _) & S) & _).
  pose proof (signed_solid _ _ _ _ S) as (Hne & Hh & _).
  destruct core as [|c core]; [congruence|]. cbn in Hh.
  assert (In c [32; 32]) as I by (rewrite P; apply in_or_app; right; left; auto).
  destruct I as [<-|[<-|[]]]; discriminate.
Qed.
Print Assumptions C29_parse_int_refuted.

(* The exact meaning: numbers which fit, and blank strings (unless the C library sets errno) *)
Theorem C29_parse_int64_partial : forall lc s base old,
  (forall v, parse_int64 lc (Some s) base (Some old) = (true, Some v) <->
     (is_number base s v /\ in_s64 v) \/ blank_zero lc base s v) /\
  (fst (parse_int64 lc (Some s) base (Some old)) = false -> snd (parse_int64 lc (Some s) base (Some old)) = Some old).
Proof. intros. split; [intros v|]; apply (parse_int64_iff lc s base old); exact 0. Qed.
Print Assumptions C29_parse_int64_partial.

Theorem C29_parse_int_partial : forall lc s base old,
  (forall v, parse_int lc (Some s) base (Some old) = (true, Some v) <->
     (is_number base s v /\ in_s32 v) \/ blank_zero lc base s v) /\
  (fst (parse_int lc (Some s) base (Some old)) = false -> snd (parse_int lc (Some s) base (Some old)) = Some old).
Proof.
  intros lc s base old. split.
  - intros v. unfold parse_int. destruct (parse_int64_iff lc s base 0 v) as (K & _).
    destruct (parse_int64 lc (Some s) base (Some 0)) as (b, o) eqn:E.
    assert (in_s32 v -> in_s64 v) as W by (unfold in_s32, in_s64; lia).
    split.
    + destruct b; [|discriminate]. destruct o as [ll|]; [|discriminate].
      destruct ((ll >=? -2^31) && (ll <=? 2^31 - 1)) eqn:R; [|discriminate]. cbn. intros Q. injection Q as ->.
      destruct (proj1 K eq_refl) as [(N & _)|Z0]; [left; split; auto; unfold in_s32; lia|auto].
    + intros H. assert ((b, o) = (true, Some v)) as Q by (apply K; destruct H as [(N & R)|Z0]; auto).
      injection Q as -> ->. destruct H as [(N & R)|(_ & _ & _ & _ & ->)].
      * unfold in_s32 in R. replace ((v >=? -2^31) && (v <=? 2^31 - 1)) with true by lia. reflexivity.
      * reflexivity.
  - unfold parse_int. destruct (parse_int64 lc (Some s) base (Some 0)) as ([|], [ll|]); auto.
    destruct (_ && _); [discriminate|auto].
Qed.
Print Assumptions C29_parse_int_partial.

(* NULL arguments *)
Theorem C29_parse_int_null : forall lc s base old,
  parse_int64 lc None base (Some old) = (false, Some old) /\ parse_int lc None base (Some old) = (false, Some old) /\
  parse_int64 lc s base None = (fst (parse_int64 lc s base (Some old)), None) /\
  parse_int lc s base None = (fst (parse_int lc s base (Some old)), None).
Proof.
  intros. split; [reflexivity|]. split; [reflexivity|]. split.
  - unfold parse_int64. destruct s as [[|c t]|]; auto. destruct (strtoll _ _ _) as (((ll, er), e), ei).
    destruct (_ && _); reflexivity.
  - unfold parse_int. destruct (parse_int64 lc s base (Some 0)) as ([|], [ll|]); auto. destruct (_ && _); reflexivity.
Qed.
Print Assumptions C29_parse_int_null.

(* " -0x8000000000000000\n", base 0; one more is out of range; "\v7" and "7\v" *)
Definition hex_min : list Z := [32;45;48;120;56;48;48;48;48;48;48;48;48;48;48;48;48;48;48;48;10].
Definition hex_under : list Z := [32;45;48;120;56;48;48;48;48;48;48;48;48;48;48;48;48;48;48;49;10].
Example C29_example :
  parse_int64 glibc (Some hex_min) 0 (Some 1) = (true, Some (-2^63)) /\
  parse_int glibc (Some hex_min) 0 (Some 1) = (false, Some 1) /\
  parse_int64 glibc (Some hex_under) 0 (Some 1) = (false, Some 1) /\
  parse_int glibc (Some [11; 55]) 10 (Some 1) = (true, Some 7) /\
  parse_int glibc (Some [55; 11]) 10 (Some 1) = (false, Some 1) /\
  parse_int glibc (Some [48; 56]) 0 (Some 1) = (false, Some 1) /\
  parse_int glibc (Some [48; 120]) 16 (Some 1) = (false, Some 1) /\
  parse_int glibc (Some [55]) 37 (Some 1) = (false, Some 1).
Proof. vm_compute. repeat split. Qed.

(* ------------------------------------------------------------------ C30 *)
Lemma parse_uint64_iff lc s base old v :
  (parse_uint64 lc (Some s) base (Some old) = (true, Some v) <->
   (is_unsigned base s v /\ in_u64 v) \/ vtab_minus base s v \/ blank_zero lc base s v) /\
  (fst (parse_uint64 lc (Some s) base (Some old)) = false -> snd (parse_uint64 lc (Some s) base (Some old)) = Some old).
Proof.
  destruct s as [|c t] eqn:Es.
  - split; [|auto]. split; [discriminate|].
    assert (forall l core r, padded l core r (@nil Z) -> core = []) as X.
    { intros l core r (P & _). destruct l; [|discriminate]. destruct core; [auto|discriminate]. }
    intros [(N & _)|[N|(N & _)]]; [| |congruence]; exfalso.
    + destruct N as (l & core & r & P & N). apply X in P. subst. destruct N as [M|(t & K & _)]; try discriminate.
      apply mag_head in M. destruct M as (? & ? & ? & K & _). discriminate.
    + destruct N as (l & core & r & m & P & _ & (t & N & _) & _). apply X in P. subst. discriminate.
  - rewrite <- Es. assert (s <> []) as Hs by congruence. unfold parse_uint64. rewrite Es. rewrite <- Es.
    destruct (strtoull lc (strstrip s) base) as (((ll, er), e), ei) eqn:E.
    pose proof (strtoull_spec lc s base ll er e ei Hs E) as K.
    (* any acceptable value is the one strtoull delivers *)
    assert ((is_unsigned base s v /\ in_u64 v) \/ vtab_minus base s v \/ blank_zero lc base s v -> v = ll) as U.
    { assert (forall l core r neg m, padded l core r s -> signed neg base core m -> in_u64 m ->
         ll = if neg then u64 (- m) else m) as U1.
      { intros l core r neg m P S R. unfold strtoull in E. rewrite (strip_padded l core r s P (signed_solid _ _ _ _ S)) in E.
        rewrite (strto_signed lc (chug l) neg base core m) in E; auto.
        2:{ apply dw_forall. apply forall_space. apply P. }
        cbn [n_mag n_neg n_end n_einval] in E. unfold in_u64 in R. unfold acc_of in E. replace (m <=? 2^64 - 1) with true in E by lia.
        injection E as <- _ _ _. reflexivity. }
      intros [((l & core & r & P & N) & R)|[(l & core & r & m & P & V & N & R & ->)|(_ & FB & GB & Hc & ->)]].
      - symmetry. apply (U1 l core r false v); auto.
      - symmetry. apply (U1 l core r true m); auto.
      - apply (strip_nil s Hs) in FB. unfold strtoull in E. rewrite FB in E. rewrite strto_unfold in E by auto. cbn [drop_while] in E. cbv zeta in E.
        cbn [n_mag n_neg n_end n_einval] in E. injection E as <- _ _ _. auto. }
    assert ((is_unsigned base s ll /\ in_u64 ll) \/ vtab_minus base s ll \/ blank_zero lc base s ll <->
       hd 0 (strstrip s) <> 45 /\ at_end e && negb ((ll =? 2 ^ 64 - 1) && er) && negb ((ll =? 0) && ei) = true) as K2.
    { rewrite K. split.
      - intros [((l & core & r & P & N) & R)|[(l & core & r & m & P & V & N & R & Ell)|(_ & FB & GB & Hc & Ell)]].
        + left. exists core. split; auto. exists l, r. auto.
        + right. left. exists core, l, r, m. auto.
        + right. right. auto.
      - intros [(core & (l & r & P & S) & R)|[(core & l & r & m & P & S & V & R & Ell)|(FB & GB & Ell & Hc)]].
        + left. split; auto. exists l, core, r. auto.
        + right. left. exists l, core, r, m. auto.
        + right. right. repeat split; auto. }
    assert (c = 45 -> hd 0 (strstrip s) = 45) as H45.
    { intros ->. rewrite strstrip_eq by auto. unfold chug. rewrite dw_idem by (rewrite Es; reflexivity). rewrite Es.
      unfold chomp. cbn [rev]. rewrite dw_app by reflexivity. rewrite rev_app_distr. reflexivity. }
    destruct (c =? 45) eqn:C.
    + split; [|auto]. split; [discriminate|]. intros H. exfalso. pose proof (U H). subst v. apply K2 in H. destruct H as (H & _). apply H, H45. lia.
    + destruct (hd 0 (strstrip s) =? 45) eqn:H.
      * split; [|auto]. split; [discriminate|]. intros Q. exfalso. pose proof (U Q). subst v. apply K2 in Q. lia.
      * destruct (at_end e && _ && _) eqn:A.
        -- split; [|discriminate]. cbn [store]. split.
           ++ intros Q. injection Q as <-. apply K2. split; auto. lia.
           ++ intros Q. rewrite (U Q). reflexivity.
        -- split; [|auto]. split; [discriminate|]. intros Q. exfalso. pose proof (U Q). subst v. apply K2 in Q. destruct Q. discriminate.
Qed.

(* A minus sign behind a vertical tab is accepted: "\v-1" is 2^64-1 *)
Theorem C30_parse_uint_refuted : exists s1 s2,
  parse_uint64 glibc (Some s1) 10 (Some 7) = (true, Some (2^64 - 1)) /\ minus_numeral 10 (tl s1) 1 /\
  parse_uint glibc (Some s2) 10 (Some 7) = (true, Some 5) /\ minus_numeral 10 (tl s2) (2^64 - 5).
Proof.
  exists [11; 45; 49], [11; 45; 49;56;52;52;54;55;52;52;48;55;51;55;48;57;53;53;49;54;49;49].
  split; [vm_compute; reflexivity|]. split.
  - exists [49]. split; [reflexivity|]. left. split; [lia|]. constructor; [unfold digit; lia|lia].
  - split; [vm_compute; reflexivity|]. eexists. split; [reflexivity|]. left. split; [lia|].
    apply digits_num. split; [discriminate|]. exists [1;8;4;4;6;7;4;4;0;7;3;7;0;9;5;5;1;6;1;1].
    split; [repeat constructor; unfold digit; lia|]. split; [repeat constructor|]. vm_compute. reflexivity.
Qed.
Print Assumptions C30_parse_uint_refuted.

Theorem C30_parse_uint64_partial : forall lc s base old,
  (forall v, parse_uint64 lc (Some s) base (Some old) = (true, Some v) <->
     (is_unsigned base s v /\ in_u64 v) \/ vtab_minus base s v \/ blank_zero lc base s v) /\
  (fst (parse_uint64 lc (Some s) base (Some old)) = false -> snd (parse_uint64 lc (Some s) base (Some old)) = Some old).
Proof. intros. split; [intros v|]; apply (parse_uint64_iff lc s base old); exact 0. Qed.
Print Assumptions C30_parse_uint64_partial.

Theorem C30_parse_uint_partial : forall lc s base old,
  (forall v, parse_uint lc (Some s) base (Some old) = (true, Some v) <->
     in_u32 v /\ (is_unsigned base s v \/ vtab_minus base s v \/ blank_zero lc base s v)) /\
  (fst (parse_uint lc (Some s) base (Some old)) = false -> snd (parse_uint lc (Some s) base (Some old)) = Some old).
Proof.
  intros lc s base old. split.
  - intros v. unfold parse_uint. destruct (parse_uint64_iff lc s base 0 v) as (K & _).
    destruct (parse_uint64 lc (Some s) base (Some 0)) as (b, o) eqn:E.
    assert (in_u32 v -> in_u64 v) as W by (unfold in_u32, in_u64; lia).
    split.
    + destruct b; [|discriminate]. destruct o as [ll|]; [|discriminate].
      destruct (ll <=? 2^32 - 1) eqn:R; [|discriminate]. cbn. intros Q. injection Q as ->.
      destruct (proj1 K eq_refl) as [(N & N2)|[Z0|Z0]].
      * split; auto. unfold in_u32, in_u64 in *. lia.
      * split; auto. destruct Z0 as (? & ? & ? & m & _ & _ & _ & _ & ->). unfold in_u32.
        pose proof (Z.mod_pos_bound (- m) (2^64) ltac:(lia)). lia.
      * split; auto. destruct Z0 as (_ & _ & _ & _ & ->). unfold in_u32. lia.
    + intros (R & H). assert ((b, o) = (true, Some v)) as Q by (apply K; destruct H as [N|[Z0|Z0]]; auto).
      injection Q as -> ->. unfold in_u32 in R. replace (v <=? 2^32 - 1) with true by lia. reflexivity.
  - unfold parse_uint. destruct (parse_uint64 lc (Some s) base (Some 0)) as ([|], [ll|]); auto.
    destruct (_ <=? _); [discriminate|auto].
Qed.
Print Assumptions C30_parse_uint_partial.

Theorem C30_parse_uint_null : forall lc s base old,
  parse_uint64 lc None base (Some old) = (false, Some old) /\ parse_uint lc None base (Some old) = (false, Some old) /\
  parse_uint64 lc s base None = (fst (parse_uint64 lc s base (Some old)), None) /\
  parse_uint lc s base None = (fst (parse_uint lc s base (Some old)), None).
Proof.
  intros. split; [reflexivity|]. split; [reflexivity|]. split.
  - unfold parse_uint64. destruct s as [[|c t]|]; auto. destruct (c =? 45); auto. destruct (hd _ _ =? 45); auto.
    destruct (strtoull _ _ _) as (((ll, er), e), ei). destruct (_ && _); reflexivity.
  - unfold parse_uint. destruct (parse_uint64 lc s base (Some 0)) as ([|], [ll|]); auto. destruct (_ <=? _); reflexivity.
Qed.
Print Assumptions C30_parse_uint_null.

Example C30_example :
  parse_uint64 glibc (Some [32; 43; 49; 122; 32]) 36 (Some 0) = (true, Some 71) /\
  parse_uint glibc (Some [52;50;57;52;57;54;55;50;57;54]) 10 (Some 9) = (false, Some 9) /\
  parse_uint64 glibc (Some [52;50;57;52;57;54;55;50;57;54]) 10 (Some 9) = (true, Some (2^32)) /\
  parse_uint64 glibc (Some [32; 45; 49]) 10 (Some 9) = (false, Some 9) /\
  parse_uint64 glibc (Some [43; 45; 49]) 10 (Some 9) = (false, Some 9) /\
  (exists v, is_unsigned 36 [32; 43; 49; 122; 32] v).
Proof.
  split; [reflexivity|]. split; [reflexivity|]. split; [reflexivity|]. split; [reflexivity|]. split; [reflexivity|].
  exists 71, [32], [43; 49; 122], [32]. split.
  - split; [reflexivity|]. split; repeat constructor; unfold blank; lia.
  - right. exists [49; 122]. split; [reflexivity|]. left. split; [lia|].
    apply (digits_snoc 36 [49] 122 1 35); [constructor; unfold digit; lia|unfold digit; lia|lia].
Qed.
