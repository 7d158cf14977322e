(* Lemmas about the int block model *)
From Verif Require Import Base HexModel DataModel IntsModel IntsSpec.
From Coq Require Import ZifyBool Arith.
Ltac Zify.zify_post_hook ::= Z.div_mod_to_equations.

(* ---------------- counting ---------------- *)
Definition b2z (b : bool) : Z := if b then 1 else 0.

Lemma filter_upd {A} (f : A -> bool) : forall l i x y, nth_error l i = Some x ->
  len (filter f (upd l i y)) = len (filter f l) - b2z (f x) + b2z (f y).
Proof.
  induction l as [|a l IH]; intros [|i] x y H; cbn in H; try discriminate; cbn [upd filter].
  - injection H as ->. destruct (f x), (f y); cbn [b2z]; rewrite ?len_cons; lia.
  - specialize (IH i x y H). destruct (f a); rewrite ?len_cons; lia.
Qed.

Definition occ (own : list nat) (i : nat) : Z := Z.of_nat (count_occ Nat.eq_dec own i).
Lemma occ_cons j own i : occ (j :: own) i = (if Nat.eqb i j then 1 else 0) + occ own i.
Proof. unfold occ. cbn. destruct (Nat.eq_dec j i), (Nat.eqb_spec i j); subst; try lia; congruence. Qed.
Lemma occ_in own i : 0 < occ own i <-> In i own.
Proof. unfold occ. rewrite (count_occ_In Nat.eq_dec). lia. Qed.
Lemma occ_nonneg own i : 0 <= occ own i.
Proof. unfold occ. lia. Qed.
Lemma occ_len own i : occ own i <= len own.
Proof. unfold occ, len. pose proof (count_occ_bound Nat.eq_dec i own). lia. Qed.
Lemma occ_drop i own j : In i own -> occ (i :: drop i own) j = occ own j.
Proof.
  induction own as [|k own IH]; cbn [drop]; [contradiction|]. intros [->|H].
  - rewrite Nat.eqb_refl. auto.
  - destruct (Nat.eqb_spec i k) as [->|N]; auto. rewrite !occ_cons in *. specialize (IH H). lia.
Qed.
Lemma in_drop i own j : In j (drop i own) -> In j own.
Proof. induction own as [|k own IH]; cbn [drop]; auto. destruct (Nat.eqb_spec i k); cbn; tauto. Qed.

Definition is_kid (p : nat) (x : option obj) : bool :=
  match x with
  | Some o => (0 <? o_refs o) && match o_free o with KUnref q => Nat.eqb q p | _ => false end
  | None => false
  end.
Definition kids (l : list (option obj)) (p : nat) : Z := len (filter (is_kid p) l).

Definition live (h : heap) (i : nat) (o : obj) : Prop := nth_error (objs h) i = Some (Some o) /\ 0 < o_refs o.

Lemma kids_pos l p : 0 < kids l p -> exists j o, nth_error l j = Some (Some o) /\ 0 < o_refs o /\ o_free o = KUnref p.
Proof.
  unfold kids. induction l as [|x l IH]; cbn [filter]; [cbn; lia|]. destruct (is_kid p x) eqn:E.
  - intros _. destruct x as [o|]; [|discriminate]. exists O, o. cbn in *. apply andb_prop in E. destruct E as (E1 & E2).
    split; auto. split; [lia|]. destruct (o_free o); try discriminate. apply Nat.eqb_eq in E2. subst. auto.
  - intros H. destruct (IH H) as (j & o & ?). exists (S j), o. auto.
Qed.
Lemma kids_in l p j o : nth_error l j = Some (Some o) -> 0 < o_refs o -> o_free o = KUnref p -> 0 < kids l p.
Proof.
  intros H R F. unfold kids. assert (In (Some o) (filter (is_kid p) l)) as I.
  { apply filter_In. split; [eapply nth_error_In; eauto|]. cbn. rewrite F, Nat.eqb_refl. lia. }
  destruct (filter (is_kid p) l); [contradiction|]. rewrite len_cons. pose proof (len_nonneg l0). lia.
Qed.
Lemma kids_len l p : kids l p <= len l.
Proof. unfold kids, len. induction l; cbn [filter]; [cbn; lia|]. destruct (is_kid p a); cbn [length]; lia. Qed.
Lemma kids_nonneg l p : 0 <= kids l p.
Proof. apply len_nonneg. Qed.
Lemma kids_app l x p : kids (l ++ [x]) p = kids l p + b2z (is_kid p x).
Proof. unfold kids. rewrite filter_app, len_app. cbn [filter]. destruct (is_kid p x); reflexivity. Qed.

(* ---------------- the invariant ---------------- *)
Definition matches (h : heap) (o : obj) (n : node) : Prop :=
  o_blk o = n_blk n /\
  match o_free o with
  | KUnref p => n_up n = Some p
  | KNull => n_up n = None /\ n_own n = false
  | KFree | KUser => n_up n = None /\ n_own n = true
  end /\
  (o_free o = KFree -> o_off o = 0) /\
  0 <= o_off o /\ 0 < o_cnt o < 2^32 /\ o_cnt o = len (n_vals n) /\
  exists c, nth_error (blks h) (o_blk o) = Some (c, 0) /\ o_off o + o_cnt o <= len c /\ slice c (o_off o) (o_off o + o_cnt o) = n_vals n.

Record inv (h : heap) (nodes : list node) (own : list nat) : Prop := {
  inv_len : length (objs h) = length nodes;
  inv_refs : forall i o, live h i o -> o_refs o = occ own i + kids (objs h) i /\ o_refs o < 2^31;
  inv_live : forall i, 0 < occ own i + kids (objs h) i -> exists o, live h i o;
  inv_match : forall i o n, live h i o -> nth_error nodes i = Some n -> matches h o n;
  inv_up : forall k n p, nth_error nodes k = Some n -> n_up n = Some p ->
             (p < k)%nat /\ exists np, nth_error nodes p = Some np /\ n_blk np = n_blk n;
  inv_roots : forall i j n m, nth_error nodes i = Some n -> nth_error nodes j = Some m -> n_up n = None -> n_up m = None -> n_blk n = n_blk m -> i = j;
  inv_blk : forall k n, nth_error nodes k = Some n -> n_up n = None ->
             exists c r, nth_error (blks h) (n_blk n) = Some (c, r) /\
               ((exists o, live h k o) -> r = 0) /\ ((forall o, ~ live h k o) -> if n_own n then r = 1 \/ r = 2 else r = 0) }.

Lemma live_dec h i : (exists o, live h i o) \/ (forall o, ~ live h i o).
Proof.
  destruct (nth_error (objs h) i) as [[o|]|] eqn:E.
  - destruct (Z_lt_le_dec 0 (o_refs o)); [left; exists o; split; auto|right]. intros o' (H & R). rewrite E in H. injection H as <-. lia.
  - right. intros o' (H & R). congruence.
  - right. intros o' (H & R). congruence.
Qed.

Lemma live_lt h nodes own i o : inv h nodes own -> live h i o -> exists n, nth_error nodes i = Some n.
Proof.
  intros I (H & _). destruct (nth_error nodes i) eqn:E; eauto. apply nth_error_None in E. rewrite <- (inv_len _ _ _ I) in E. apply nth_error_None in E. congruence.
Qed.

(* two live objects with the same memory have the same root *)
Lemma live_root h nodes own : inv h nodes own -> forall j o n, live h j o -> nth_error nodes j = Some n ->
  exists k ok nk, live h k ok /\ nth_error nodes k = Some nk /\ n_up nk = None /\ n_blk nk = n_blk n.
Proof.
  intros I j. induction j as [j IH] using lt_wf_ind. intros o n L N.
  destruct (n_up n) as [p|] eqn:U.
  - destruct (inv_up _ _ _ I j n p N U) as (Lt & np & Np & B).
    pose proof (inv_match _ _ _ I j o n L N) as (_ & F & _). destruct L as (L1 & L2).
    assert (o_free o = KUnref p) as Fo. { destruct (o_free o); try (destruct F; congruence). congruence. }
    destruct (inv_live _ _ _ I p) as (op & Lp). { pose proof (kids_in _ p j o L1 L2 Fo). pose proof (occ_nonneg own p). lia. }
    destruct (IH p Lt op np Lp Np) as (k & ok & nk & ? & ? & ? & ?). exists k, ok, nk. repeat (split; auto). congruence.
  - exists j, o, n. auto.
Qed.

(* changing an entry *)
Lemma nth_upd {A} (l : list A) i j (x : A) : nth_error (upd l i x) j = if Nat.eqb i j then match nth_error l i with Some _ => Some x | None => None end else nth_error l j.
Proof.
  destruct (Nat.eqb_spec i j) as [->|N]; [|apply nth_error_upd_ne; auto].
  destruct (nth_error l j) eqn:E.
  - apply nth_error_upd_eq. apply nth_error_Some. congruence.
  - apply nth_error_None. rewrite upd_length. apply nth_error_None. auto.
Qed.

Lemma live_upd h i x j o : live (set_obj h i x) j o <->
  (i <> j /\ live h j o) \/ (i = j /\ nth_error (objs h) i <> None /\ x = Some o /\ 0 < o_refs o).
Proof.
  unfold live, set_obj. cbn [objs]. rewrite nth_upd. destruct (Nat.eqb_spec i j) as [->|N].
  - destruct (nth_error (objs h) j) eqn:E; split.
    + intros (H & R). right. injection H as ->. repeat split; auto. congruence.
    + intros [(H & _)|(_ & _ & -> & R)]; [congruence|auto].
    + intros (H & _). discriminate.
    + intros [(H & _)|(_ & H & _)]; congruence.
  - split; [auto|]. intros [(_ & H)|(H & _)]; [auto|congruence].
Qed.

(* a change of the reference counter *)
Lemma kids_refs l i o n p : nth_error l i = Some (Some o) -> (0 <? o_refs o) = (0 <? n) -> kids (upd l i (Some (set_refs o n))) p = kids l p.
Proof. intros H E. unfold kids. rewrite (filter_upd (is_kid p) l i (Some o)); auto. cbn [is_kid set_refs o_refs o_free]. rewrite E. lia. Qed.

Lemma inv_perm h nodes own own' : (forall i, occ own i = occ own' i) -> inv h nodes own -> inv h nodes own'.
Proof. intros E [A B C D F G H]. constructor; auto; intros i; rewrite <- E; auto. Qed.

Lemma matches_ext h h' o n : nth_error (blks h') (o_blk o) = nth_error (blks h) (o_blk o) -> matches h o n -> matches h' o n.
Proof. intros E (A & B & C & D & F & G & c & K & K2). repeat (split; auto). exists c. rewrite E. auto. Qed.

Lemma matches_refs h o n k : matches h o n -> matches h (set_refs o k) n.
Proof. intros M. exact M. Qed.

(* the counter goes up or down and stays positive *)
Lemma inv_set_refs h nodes own own' i o k : inv h nodes own -> live h i o -> 0 < k < 2^31 ->
  k = occ own' i + kids (objs h) i -> (forall j, j <> i -> occ own' j = occ own j) ->
  inv (set_obj h i (Some (set_refs o k))) nodes own'.
Proof.
  intros [A B C D F G H] L Hk Ek Eo. pose proof L as (L1 & L2).
  assert (forall p, kids (objs (set_obj h i (Some (set_refs o k)))) p = kids (objs h) p) as KE.
  { intros p. apply kids_refs; auto. lia. }
  constructor.
  - cbn. rewrite upd_length. auto.
  - intros j oj Lj. rewrite KE. apply live_upd in Lj. destruct Lj as [(N & Lj)|(<- & _ & Ej & R)].
    + rewrite Eo by auto. apply B. auto.
    + injection Ej as <-. cbn. lia.
  - intros j Hj. rewrite KE in Hj. destruct (Nat.eq_dec i j) as [<-|N].
    + exists (set_refs o k). apply live_upd. right. repeat split; [congruence|cbn; lia].
    + rewrite Eo in Hj by auto. destruct (C j Hj) as (oj & Lj). exists oj. apply live_upd. auto.
  - intros j oj n Lj Nj. apply live_upd in Lj. destruct Lj as [(N & Lj)|(<- & _ & Ej & R)].
    + apply (matches_ext h); auto. eapply D; eauto.
    + injection Ej as <-. apply (matches_ext h); auto. apply matches_refs. eapply D; eauto.
  - auto.
  - auto.
  - intros j n Nj U. destruct (H j n Nj U) as (c & r & E & R1 & R2). exists c, r. split; auto. split.
    + intros (oj & Lj). apply R1. apply live_upd in Lj. destruct Lj as [(N & Lj)|(<- & _ & Ej & R)]; eauto.
    + intros Nl. apply R2. intros oj Lj. destruct (Nat.eq_dec i j) as [<-|N].
      * apply (Nl (set_refs o k)). apply live_upd. right. repeat split; [congruence|cbn; lia].
      * apply (Nl oj). apply live_upd. auto.
Qed.

Lemma occ_eqb_refl (i : nat) own : occ (i :: own) i = 1 + occ own i.
Proof. rewrite occ_cons, Nat.eqb_refl. reflexivity. Qed.
Lemma occ_ne (i j : nat) own : j <> i -> occ (i :: own) j = occ own j.
Proof. intros N. rewrite occ_cons. destruct (Nat.eqb_spec j i); [congruence|lia]. Qed.

Lemma ref_spec h nodes own i : inv h nodes own -> In i own -> len own + len nodes < 2^31 - 1 ->
  exists o, live h i o /\ ints_ref h i = Ok (set_obj h i (Some (set_refs o (o_refs o + 1)))) /\
    inv (set_obj h i (Some (set_refs o (o_refs o + 1)))) nodes (i :: own).
Proof.
  intros I Hi Hb. apply occ_in in Hi. destruct (inv_live _ _ _ I i) as (o & L). { pose proof (kids_nonneg (objs h) i). lia. }
  destruct (inv_refs _ _ _ I i o L) as (R1 & R2). pose proof (occ_len own i). pose proof (kids_len (objs h) i).
  assert (len (objs h) = len nodes) by (unfold len; rewrite (inv_len _ _ _ I); auto).
  exists o. split; auto. unfold ints_ref, get. pose proof L as (L1 & L2). rewrite L1. cbn [bind]. rewrite s32_id by (unfold in_s32; lia). split; auto.
  apply inv_set_refs with own; auto; [lia| |].
  - rewrite occ_eqb_refl. lia.
  - intros j N. apply occ_ne. auto.
Qed.

(* an object which nobody refers to: what changes if its counter drops to 0 and its data is not looked at any more *)
Lemma inv_zombie h nodes own i o : inv h nodes (i :: own) -> live h i o -> o_refs o = 1 ->
  let h1 := set_obj h i (Some (set_refs o 0)) in
  occ own i = 0 /\ kids (objs h) i = 0 /\
  (forall p, kids (objs h1) p = kids (objs h) p - match o_free o with KUnref q => if Nat.eqb q p then 1 else 0 | _ => 0 end) /\
  (forall j oj, live h1 j oj <-> i <> j /\ live h j oj).
Proof.
  intros I L R h1. destruct (inv_refs _ _ _ I i o L) as (R1 & _). rewrite occ_eqb_refl in R1.
  pose proof (occ_nonneg own i). pose proof (kids_nonneg (objs h) i). split; [lia|]. split; [lia|]. pose proof L as (L1 & L2). split.
  - intros p. unfold kids, h1, set_obj. cbn [objs]. rewrite (filter_upd (is_kid p) _ i (Some o)); auto. cbn [is_kid set_refs o_refs o_free].
    replace (0 <? o_refs o) with true by lia. cbn [andb Z.ltb Z.compare b2z]. destruct (o_free o) as [| | |q]; [cbn; lia..|]. destruct (Nat.eqb q p); cbn; lia.
  - intros j oj. unfold h1. rewrite live_upd. split; [|auto]. intros [?|(_ & _ & E & ?)]; auto. injection E as <-. cbn in *. lia.
Qed.

(* removing the memory of such an object *)
Lemma inv_remove h nodes own i o : inv h nodes own -> nth_error (objs h) i = Some (Some o) -> o_refs o = 0 -> inv (set_obj h i None) nodes own.
Proof.
  intros [A B C D F G H] E R.
  assert (forall j oj, live (set_obj h i None) j oj <-> live h j oj) as LE.
  { intros j oj. rewrite live_upd. split.
    - intros [(_ & ?)|(_ & _ & ? & _)]; [auto|discriminate].
    - intros L. left. split; auto. intros <-. destruct L as (L1 & L2). rewrite E in L1. injection L1 as <-. lia. }
  assert (forall p, kids (objs (set_obj h i None)) p = kids (objs h) p) as KE.
  { intros p. unfold kids. cbn [set_obj objs]. rewrite (filter_upd (is_kid p) _ i (Some o)); auto. cbn [is_kid b2z]. rewrite R. cbn. lia. }
  constructor; auto.
  - cbn. rewrite upd_length. auto.
  - intros j oj Lj. apply LE in Lj. rewrite KE. auto.
  - intros j Hj. rewrite KE in Hj. destruct (C j Hj) as (oj & Lj). exists oj. apply LE. auto.
  - intros j oj n Lj. apply LE in Lj. intros. apply (matches_ext h); eauto.
  - intros k n N U. destruct (H k n N U) as (c & r & E1 & R1 & R2). exists c, r. split; auto. split.
    + intros (oj & Lj). apply R1. exists oj. apply LE. auto.
    + intros Nl. apply R2. intros oj Lj. apply (Nl oj). apply LE. auto.
Qed.

(* dropping the last reference to an object which owns its memory *)
Lemma inv_release how h nodes own i o : how = 1 \/ how = 2 -> inv h nodes (i :: own) -> live h i o -> o_refs o = 1 -> (o_free o = KFree \/ o_free o = KUser) ->
  let h1 := set_obj h i (Some (set_refs o 0)) in
  exists h2, finish how h1 (o_blk o) = Ok h2 /\ objs h2 = objs h1 /\ inv h2 nodes own.
Proof.
  intros Hhow I L R K h1. destruct (inv_zombie h nodes own i o I L R) as (O0 & K0 & KE & LE). fold h1 in KE, LE.
  destruct (live_lt _ _ _ _ _ I L) as (n & N). pose proof (inv_match _ _ _ I i o n L N) as (Eb & F & _ & _ & _ & _ & c & Ec & _).
  assert (n_up n = None /\ n_own n = true) as (U & W) by (destruct K as [K|K]; rewrite K in F; auto).
  assert (forall p, kids (objs h1) p = kids (objs h) p) as KE'. { intros p. rewrite KE. destruct K as [K|K]; rewrite K; lia. }
  unfold finish. cbn [h1 set_obj blks]. rewrite Ec. change (0 =? 0) with true. cbv iota. eexists. split; [reflexivity|]. split; [reflexivity|].
  (* nobody else uses this memory *)
  assert (forall j oj nj, live h1 j oj -> nth_error nodes j = Some nj -> n_blk nj <> n_blk n) as NB.
  { intros j oj nj Lj Nj Hb. apply LE in Lj. destruct Lj as (Nij & Lj).
    destruct (n_up nj) as [q|] eqn:Uj.
    - (* the first slice on the way from the root *)
      assert (forall j oj nj, live h j oj -> nth_error nodes j = Some nj -> n_blk nj = n_blk n -> j <> i -> False) as X; [|eapply X; eauto].
      clear j oj nj Nij Lj Nj Hb q Uj. intros j. induction j as [j IH] using lt_wf_ind. intros oj nj Lj Nj Hb Nij.
      destruct (n_up nj) as [q|] eqn:Uj.
      + destruct (inv_up _ _ _ I j nj q Nj Uj) as (Lt & nq & Nq & Bq). pose proof (inv_match _ _ _ I j oj nj Lj Nj) as (_ & Fj & _).
        destruct Lj as (Lj1 & Lj2). assert (o_free oj = KUnref q) as Fo. { destruct (o_free oj); try (destruct Fj; congruence). congruence. }
        pose proof (kids_in _ q j oj Lj1 Lj2 Fo) as Kq. destruct (Nat.eq_dec q i) as [->|Nq']; [lia|].
        destruct (inv_live _ _ _ I q) as (oq & Lq). { pose proof (occ_nonneg (i :: own) q). lia. }
        eapply (IH q Lt oq nq Lq Nq); [congruence|auto].
      + apply Nij. eapply (inv_roots _ _ _ I); eauto.
    - apply Nij. symmetry. eapply (inv_roots _ _ _ I); eauto. }
  destruct I as [A B C D G X Y].
  assert (forall b, b <> n_blk n -> nth_error (upd (blks h) (o_blk o) (c, how)) b = nth_error (blks h) b) as EB.
  { intros b Nb. rewrite nth_upd. destruct (Nat.eqb_spec (o_blk o) b); [congruence|auto]. }
  constructor; auto.
  - cbn. rewrite upd_length. auto.
  - intros j oj Lj. cbn [objs]. fold (objs h1). assert (live h1 j oj) as Lj' by exact Lj. apply LE in Lj'. destruct Lj' as (Nij & Lj').
    change (upd (objs h) i (Some (set_refs o 0))) with (objs h1). rewrite KE'. destruct (B j oj Lj') as (R1 & R2). rewrite occ_ne in R1 by auto. auto.
  - intros j Hj. cbn [objs] in Hj. change (upd (objs h) i (Some (set_refs o 0))) with (objs h1) in Hj. rewrite KE' in Hj.
    destruct (Nat.eq_dec j i) as [->|Nji]; [lia|]. destruct (C j) as (oj & Lj); [rewrite occ_ne; auto|]. exists oj. change (live h1 j oj). apply LE. auto.
  - intros j oj nj Lj Nj. assert (live h1 j oj) as Lj1 by exact Lj. pose proof (NB j oj nj Lj1 Nj) as Nb. apply LE in Lj1. destruct Lj1 as (Nij & Lj1).
    pose proof (D j oj nj Lj1 Nj) as M. apply (matches_ext h); auto. cbn [blks]. apply EB. destruct M as (M & _). congruence.
  - intros k nk Nk Uk. destruct (Y k nk Nk Uk) as (c' & r' & E1 & R1 & R2). destruct (Nat.eq_dec k i) as [->|Nki].
    + assert (nk = n) by congruence. subst nk. exists c, how. cbn [blks]. rewrite nth_upd, Eb, Nat.eqb_refl. rewrite Eb in Ec. rewrite Ec. split; auto. split.
      * intros (oj & Lj). assert (live h1 i oj) as Lj' by exact Lj. apply LE in Lj'. destruct Lj'. congruence.
      * intros _. rewrite W. auto.
    + exists c', r'. cbn [blks]. rewrite EB; [|intros Hb; apply Nki; eapply X; eauto]. split; auto. split.
      * intros (oj & Lj). apply R1. assert (live h1 k oj) as Lj' by exact Lj. apply LE in Lj'. destruct Lj'. eauto.
      * intros Nl. apply R2. intros oj Lj. apply (Nl oj). change (live h1 k oj). apply LE. auto.
Qed.

(* the last reference to a slice *)
Lemma inv_pass h nodes own i o p : inv h nodes (i :: own) -> live h i o -> o_refs o = 1 -> o_free o = KUnref p ->
  inv (set_obj h i (Some (set_refs o 0))) nodes (p :: own) /\ (p < i)%nat.
Proof.
  intros I L R K. destruct (inv_zombie h nodes own i o I L R) as (O0 & K0 & KE & LE). rewrite K in KE.
  destruct (live_lt _ _ _ _ _ I L) as (n & N). pose proof (inv_match _ _ _ I i o n L N) as (_ & F & _). rewrite K in F.
  destruct (inv_up _ _ _ I i n p N F) as (Lt & _). split; auto.
  set (h1 := set_obj h i (Some (set_refs o 0))) in *. destruct I as [A B C D G X Y].
  constructor; auto.
  - cbn. rewrite upd_length. auto.
  - intros j oj Lj. apply LE in Lj. destruct Lj as (Nij & Lj). destruct (B j oj Lj) as (R1 & R2). rewrite KE. rewrite occ_ne in R1 by auto.
    destruct (Nat.eqb_spec p j) as [->|Npj]; [rewrite occ_eqb_refl; lia|rewrite occ_ne by auto; lia].
  - intros j Hj. rewrite KE in Hj. destruct (Nat.eq_dec j i) as [->|Nji].
    + exfalso. rewrite occ_ne in Hj by lia. destruct (Nat.eqb_spec p i); lia.
    + destruct (C j) as (oj & Lj). { rewrite occ_ne by auto. destruct (Nat.eqb_spec p j) as [->|Npj]; [rewrite occ_eqb_refl in Hj; lia|rewrite occ_ne in Hj by auto; lia]. }
      exists oj. apply LE. auto.
  - intros j oj nj Lj Nj. apply LE in Lj. destruct Lj. apply (matches_ext h); eauto.
  - intros k nk Nk Uk. destruct (Y k nk Nk Uk) as (c' & r' & E1 & R1 & R2). exists c', r'. split; auto.
    assert (k <> i) as Nki by (intros ->; congruence). split.
    + intros (oj & Lj). apply LE in Lj. destruct Lj. eauto.
    + intros Nl. apply R2. intros oj Lj. apply (Nl oj). apply LE. auto.
Qed.

(* static data *)
Lemma inv_static h nodes own i o : inv h nodes (i :: own) -> live h i o -> o_refs o = 1 -> o_free o = KNull ->
  inv (set_obj h i (Some (set_refs o 0))) nodes own.
Proof.
  intros I L R K. destruct (inv_zombie h nodes own i o I L R) as (O0 & K0 & KE & LE). rewrite K in KE.
  destruct (live_lt _ _ _ _ _ I L) as (n & N). pose proof (inv_match _ _ _ I i o n L N) as (_ & F & _). rewrite K in F. destruct F as (U & W).
  set (h1 := set_obj h i (Some (set_refs o 0))) in *. destruct I as [A B C D G X Y].
  constructor; auto.
  - cbn. rewrite upd_length. auto.
  - intros j oj Lj. apply LE in Lj. destruct Lj as (Nij & Lj). destruct (B j oj Lj) as (R1 & R2). rewrite KE. rewrite occ_ne in R1 by auto. lia.
  - intros j Hj. rewrite KE in Hj. destruct (Nat.eq_dec j i) as [->|Nji]; [lia|]. destruct (C j) as (oj & Lj); [rewrite occ_ne by auto; lia|]. exists oj. apply LE. auto.
  - intros j oj nj Lj Nj. apply LE in Lj. destruct Lj. apply (matches_ext h); eauto.
  - intros k nk Nk Uk. destruct (Y k nk Nk Uk) as (c' & r' & E1 & R1 & R2). exists c', r'. split; auto. split.
    + intros (oj & Lj). apply LE in Lj. destruct Lj. eauto.
    + intros Nl. destruct (Nat.eq_dec k i) as [->|Nki]; [|apply R2; intros oj Lj; apply (Nl oj); apply LE; auto].
      assert (nk = n) by congruence. subst nk. rewrite W. apply R1. eauto.
Qed.

Lemma unref_spec nodes : forall fuel h own i, (i < fuel)%nat -> inv h nodes (i :: own) ->
  exists h', ints_unref fuel h i = Ok h' /\ inv h' nodes own /\ length (blks h') = length (blks h) /\
    (forall j, (i < j)%nat -> nth_error (objs h') j = nth_error (objs h) j) /\
    (forall j o, nth_error (objs h') j = Some (Some o) -> o_refs o <= 0 -> nth_error (objs h) j = Some (Some o)).
Proof.
  induction fuel; intros h own i Hi I; [lia|]. cbn [ints_unref].
  destruct (inv_live _ _ _ I i) as (o & L). { rewrite occ_eqb_refl. pose proof (occ_nonneg own i). pose proof (kids_nonneg (objs h) i). lia. }
  destruct (inv_refs _ _ _ I i o L) as (R1 & R2). rewrite occ_eqb_refl in R1. pose proof L as (L1 & L2). pose proof (occ_nonneg own i). pose proof (kids_nonneg (objs h) i).
  unfold get. rewrite L1. cbn [bind]. rewrite s32_id by (unfold in_s32; lia).
  destruct (o_refs o - 1 =? 0) eqn:E.
  - assert (o_refs o = 1) as R by lia. replace (o_refs o - 1) with 0 by lia. set (h1 := set_obj h i (Some (set_refs o 0))).
    assert (forall j, (i < j)%nat -> nth_error (objs h1) j = nth_error (objs h) j) as F1.
    { intros j Hj. cbn. rewrite nth_upd. destruct (Nat.eqb_spec i j); [lia|auto]. }
    assert (nth_error (objs h1) i = Some (Some (set_refs o 0))) as Z1 by (cbn; rewrite nth_upd, Nat.eqb_refl, L1; auto).
    assert (exists h2, (match o_free o with KNull => Ok h1 | KFree | KUser => release h1 (o_blk o) | KUnref p => ints_unref fuel h1 p end) = Ok h2 /\ inv h2 nodes own /\ length (blks h2) = length (blks h) /\
       nth_error (objs h2) i = Some (Some (set_refs o 0)) /\ (forall j, (i < j)%nat -> nth_error (objs h2) j = nth_error (objs h) j) /\
       (forall j o, j <> i -> nth_error (objs h2) j = Some (Some o) -> o_refs o <= 0 -> nth_error (objs h) j = Some (Some o))) as (h2 & E2 & I2 & LB & Z2 & F2 & W2).
    { assert (forall j oj, j <> i -> nth_error (objs h1) j = Some (Some oj) -> o_refs oj <= 0 -> nth_error (objs h) j = Some (Some oj)) as W1.
      { intros j oj Nj. cbn. rewrite nth_upd. destruct (Nat.eqb_spec i j); [congruence|auto]. }
      destruct (o_free o) as [| | |parent] eqn:K.
      - exists h1. split; auto. split; [apply inv_static; auto|]. auto.
      - destruct (inv_release 1 h nodes own i o (or_introl eq_refl) I L R (or_introl K)) as (h2 & E2 & EO & I2). fold h1 in E2, EO. exists h2. rewrite EO. split; auto. split; auto. split; [|auto].
        unfold release, finish in E2. destruct (nth_error (blks h1) (o_blk o)) as [(c, r)|]; [|discriminate]. destruct (r =? 0); [|discriminate]. injection E2 as <-. cbn. apply upd_length.
      - destruct (inv_release 1 h nodes own i o (or_introl eq_refl) I L R (or_intror K)) as (h2 & E2 & EO & I2). fold h1 in E2, EO. exists h2. rewrite EO. split; auto. split; auto. split; [|auto].
        unfold release, finish in E2. destruct (nth_error (blks h1) (o_blk o)) as [(c, r)|]; [|discriminate]. destruct (r =? 0); [|discriminate]. injection E2 as <-. cbn. apply upd_length.
      - destruct (inv_pass h nodes own i o parent I L R K) as (I1 & Lt). fold h1 in I1.
        destruct (IHfuel h1 own parent ltac:(lia) I1) as (h2 & E2 & I2 & LB2 & F2 & W2). exists h2. split; auto. split; auto. split; [auto|].
        split; [rewrite F2; auto|]. split; [intros; rewrite F2 by lia; auto|]. intros j oj Nj Hj Rj. apply W1; auto. }
    rewrite E2. cbn [bind]. eexists. split; [reflexivity|]. split; [eapply inv_remove; eauto|]. split; [auto|]. split.
    + intros j Hj. cbn. rewrite nth_upd. destruct (Nat.eqb_spec i j); [lia|auto].
    + intros j oj. cbn. rewrite nth_upd. destruct (Nat.eqb_spec i j) as [<-|Nj]; [rewrite Z2; discriminate|]. intros. apply W2; auto.
  - eexists. split; [reflexivity|]. split; [|split; [reflexivity|split]].
    + apply inv_set_refs with (i :: own); auto; [lia|lia|]. intros j Nj. rewrite occ_ne; auto.
    + intros j Hj. cbn. rewrite nth_upd. destruct (Nat.eqb_spec i j); [lia|auto].
    + intros j oj. cbn. rewrite nth_upd. destruct (Nat.eqb_spec i j) as [<-|Nj]; [|auto]. rewrite L1. intros H1 H2. injection H1 as <-. cbn in H2. lia.
Qed.

(* ---------------- new objects and blocks ---------------- *)
Lemma nth_app_last {A} (l : list A) x j : nth_error (l ++ [x]) j = if Nat.eqb j (length l) then Some x else nth_error l j.
Proof.
  destruct (Nat.eqb_spec j (length l)) as [->|N].
  - rewrite nth_error_app2, Nat.sub_diag by lia. auto.
  - destruct (Nat.lt_ge_cases j (length l)).
    + apply nth_error_app1. auto.
    + replace (nth_error l j) with (@None A) by (symmetry; apply nth_error_None; lia). apply nth_error_None. rewrite app_length. cbn. lia.
Qed.
Lemma nth_lt {A} (l : list A) j x : nth_error l j = Some x -> (j < length l)%nat.
Proof. intros H. apply nth_error_Some. congruence. Qed.

Lemma inv_add_blk h nodes own c : inv h nodes own -> inv (fst (add_blk h c)) nodes own.
Proof.
  intros [A B C D F G H]. constructor; auto.
  - intros i o n L N. pose proof (D i o n L N) as M. apply (matches_ext h); auto. cbn [add_blk fst blks]. rewrite nth_app_last.
    destruct M as (_ & _ & _ & _ & _ & _ & c' & E & _). pose proof (nth_lt _ _ _ E). destruct (Nat.eqb_spec (o_blk o) (length (blks h))); [lia|auto].
  - intros k n N U. destruct (H k n N U) as (c' & r & E & R). exists c', r. split; auto. cbn [add_blk fst blks]. rewrite nth_app_last.
    pose proof (nth_lt _ _ _ E). destruct (Nat.eqb_spec (n_blk n) (length (blks h))); [lia|auto].
Qed.

Lemma inv_add h nodes own o n :
  inv h nodes (match o_free o with KUnref p => p :: own | _ => own end) -> o_refs o = 1 -> matches h o n ->
  (forall p, n_up n = Some p -> exists m, nth_error nodes p = Some m /\ n_blk m = n_blk n) ->
  (n_up n = None -> forall j m, nth_error nodes j = Some m -> n_up m = None -> n_blk m <> n_blk n) ->
  inv (mkHeap (objs h ++ [Some o]) (blks h)) (nodes ++ [n]) (length (objs h) :: own).
Proof.
  intros I R M P1 P2. set (i := length (objs h)). set (own0 := match o_free o with KUnref p => p :: own | _ => own end) in *.
  set (h' := mkHeap (objs h ++ [Some o]) (blks h)).
  assert (forall j oj, live h' j oj <-> (j <> i /\ live h j oj) \/ (j = i /\ oj = o)) as LE.
  { intros j oj. unfold live, h'. cbn [objs]. rewrite nth_app_last. fold i. destruct (Nat.eqb_spec j i) as [->|N].
    - split; [intros (E & _); injection E as <-; auto|]. intros [(N & _)|(_ & ->)]; [congruence|]. split; [auto|lia].
    - split; [auto|]. intros [(_ & L)|(? & _)]; [auto|congruence]. }
  assert (forall j oj, live h j oj -> (j < i)%nat) as Lt. { intros j oj (L & _). eapply nth_lt. eauto. }
  assert (forall p, kids (objs h') p = kids (objs h) p + match o_free o with KUnref q => if Nat.eqb q p then 1 else 0 | _ => 0 end) as KE.
  { intros p. unfold h'. cbn [objs]. rewrite kids_app. f_equal. cbn [is_kid]. rewrite R. cbn [Z.ltb Z.compare andb]. destruct (o_free o); try reflexivity. }
  assert (occ own0 i = 0 /\ kids (objs h) i = 0) as (O0 & K0).
  { pose proof (occ_nonneg own0 i). pose proof (kids_nonneg (objs h) i). destruct (Z_lt_le_dec 0 (occ own0 i + kids (objs h) i)) as [Q|Q]; [|lia].
    destruct (inv_live _ _ _ I i Q) as (oi & Li). specialize (Lt _ _ Li). lia. }
  assert (forall j, occ own0 j = occ own j + match o_free o with KUnref q => if Nat.eqb q j then 1 else 0 | _ => 0 end) as OE.
  { intros j. unfold own0. destruct (o_free o); try lia. rewrite occ_cons, Nat.eqb_sym. lia. }
  pose proof (occ_nonneg own i) as Oi. pose proof (OE i) as OEi. pose proof (KE i) as KEi.
  destruct I as [A B C D F G H].
  constructor.
  - cbn. rewrite !app_length, A. auto.
  - intros j oj Lj. apply LE in Lj. destruct Lj as [(N & Lj)|(-> & ->)].
    + destruct (B j oj Lj) as (B1 & B2). rewrite OE in B1. rewrite KE, occ_ne by auto. lia.
    + rewrite occ_eqb_refl, KE. lia.
  - intros j Hj. destruct (Nat.eq_dec j i) as [->|N]; [exists o; apply LE; auto|]. rewrite KE, occ_ne in Hj by auto.
    destruct (C j) as (oj & Lj); [rewrite OE; lia|]. exists oj. apply LE. auto.
  - intros j oj nj Lj Nj. rewrite nth_app_last, <- A in Nj. fold i in Nj. apply LE in Lj. destruct Lj as [(N & Lj)|(-> & ->)].
    + destruct (Nat.eqb_spec j i); [congruence|]. apply (matches_ext h); eauto.
    + rewrite Nat.eqb_refl in Nj. injection Nj as <-. apply (matches_ext h); auto.
  - intros k nk p Nk U. rewrite nth_app_last in Nk. destruct (Nat.eqb_spec k (length nodes)) as [->|N].
    + injection Nk as <-. destruct (P1 p U) as (m & Nm & Bm). pose proof (nth_lt _ _ _ Nm). split; auto. exists m. rewrite nth_error_app1 by auto. auto.
    + destruct (F k nk p Nk U) as (F1 & m & F2 & F3). split; auto. exists m. pose proof (nth_lt _ _ _ F2). rewrite nth_error_app1 by auto. auto.
  - intros a b na nb Na Nb Ua Ub Eb. rewrite nth_app_last in Na, Nb.
    destruct (Nat.eqb_spec a (length nodes)) as [->|N1], (Nat.eqb_spec b (length nodes)) as [->|N2]; auto.
    + injection Na as <-. exfalso. eapply P2; eauto.
    + injection Nb as <-. exfalso. eapply P2; eauto.
    + eauto.
  - intros k nk Nk U. rewrite nth_app_last in Nk. cbn [h' blks]. destruct (Nat.eqb_spec k (length nodes)) as [->|N].
    + injection Nk as <-. destruct M as (Mb & _ & _ & _ & _ & _ & c & Ec & _). exists c, 0. rewrite <- Mb. split; auto. split; auto.
      intros Nl. exfalso. apply (Nl o). apply LE. right. unfold i. auto.
    + destruct (H k nk Nk U) as (c & r & E & R1 & R2). exists c, r. split; auto. unfold i in *. split.
      * intros (oj & Lj). apply LE in Lj. rewrite A in Lj. destruct Lj as [(? & Lj)|(? & _)]; [eauto|congruence].
      * intros Nl. apply R2. intros oj Lj. apply (Nl oj). apply LE. left. rewrite A. auto.
Qed.

Definition clean (h : heap) : Prop := forall j o, nth_error (objs h) j = Some (Some o) -> 0 < o_refs o.

(* ---------------- what an owner can see ---------------- *)
Lemma owned_live h nodes own i : inv h nodes own -> In i own -> exists o n, live h i o /\ nth_error nodes i = Some n /\ matches h o n.
Proof.
  intros I Hi. apply occ_in in Hi. destruct (inv_live _ _ _ I i) as (o & L). { pose proof (kids_nonneg (objs h) i). lia. }
  destruct (live_lt _ _ _ _ _ I L) as (n & N). exists o, n. split; auto. split; auto. eapply inv_match; eauto.
Qed.

Lemma read_matches h o n : matches h o n -> read h (o_blk o) (o_off o) (o_cnt o) = Ok (n_vals n).
Proof.
  intros (_ & _ & _ & H1 & H2 & _ & c & E & H3 & H4). unfold read. rewrite E. change (0 =? 0) with true. cbv iota.
  replace ((0 <=? o_off o) && (o_off o + o_cnt o <=? len c)) with true by lia. congruence.
Qed.

Lemma slice_slice {A} (c : list A) a b x y : 0 <= a -> 0 <= x -> x <= y -> y <= b - a -> slice (slice c a b) x y = slice c (a + x) (a + y).
Proof.
  intros. unfold slice. rewrite skipn_firstn_comm, skipn_skipn', firstn_firstn. f_equal; [lia|]. f_equal. lia.
Qed.

(* ---------------- one call ---------------- *)
Lemma desc_live h nodes own : inv h nodes own -> forall k j, desc nodes k j -> (exists o, live h j o) -> exists o, live h k o.
Proof.
  intros I k j D. induction D as [|j p n N U D IH]; auto. intros (o & L). apply IH.
  pose proof (inv_match _ _ _ I j o n L N) as (_ & F & _). destruct L as (L1 & L2).
  assert (o_free o = KUnref p) as Fo. { destruct (o_free o); try (destruct F; congruence). congruence. }
  apply (inv_live _ _ _ I p). pose proof (kids_in _ p j o L1 L2 Fo). pose proof (occ_nonneg own p). lia.
Qed.

(* the last reference: no slice of it is left either *)
Lemma last_needed h nodes own i o : inv h nodes (i :: own) -> live h i o -> o_refs o = 1 -> ~ needed (nodes, own) i.
Proof.
  intros I L R (j & Hj & D). cbn [fst snd] in *. destruct (inv_refs _ _ _ I i o L) as (E & _). rewrite occ_eqb_refl in E.
  pose proof (occ_nonneg own i). pose proof (kids_nonneg (objs h) i).
  destruct (owned_live _ _ _ j I (or_intror Hj)) as (oj & _ & Lj & _).
  assert (forall j, desc nodes i j -> (exists o, live h j o) -> j = i \/ 0 < kids (objs h) i) as X.
  { clear - I. intros j D. induction D as [|j p n N U D IH]; auto. intros (o & L). right.
    pose proof (inv_match _ _ _ I j o n L N) as (_ & F & _). destruct L as (L1 & L2).
    assert (o_free o = KUnref p) as Fo. { destruct (o_free o); try (destruct F; congruence). congruence. }
    pose proof (kids_in _ p j o L1 L2 Fo) as K. destruct IH as [->|Q]; auto. apply (inv_live _ _ _ I p). pose proof (occ_nonneg (i :: own) p). lia. }
  destruct (X j D (ex_intro _ oj Lj)) as [->|Q]; [|lia]. apply occ_in in Hj. lia.
Qed.

Lemma step_ok h nodes own c : inv h nodes own -> clean h -> correct (nodes, own) c ->
  exists h' r, step h c = Ok (h', r) /\ inv h' (fst (after (nodes, own) c r)) (snd (after (nodes, own) c r)) /\ clean h' /\
    match c, r with
    | CNew _ v, RNew (Some _) _ => v <> []
    | CNew _ v, RNew None _ => v = []
    | CSlice i off n, RNew (Some _) _ => exists m, nth_error nodes i = Some m /\ off < len (n_vals m) /\ 0 < n
    | CSlice i off n, RNew None _ => exists m, nth_error nodes i = Some m /\ (len (n_vals m) <= off \/ n = 0)
    | CRef _, RNone | CUnref _, RNone => True
    | CToData i, RData b off n => exists m cc rr, nth_error nodes i = Some m /\ nth_error (blks h') b = Some (cc, rr) /\
        off = 0 /\ n = len (n_vals m) /\ n <= len cc /\ slice cc 0 n = n_vals m /\
        ((b = length (blks h) /\ rr = 0) \/ (n_up m = None /\ n_own m = true /\ b = n_blk m /\ rr = 2 /\ forall o, ~ live h' i o))
    | _, _ => False
    end.
Proof.
  intros I Cl V. destruct c as [k v|i off n|i|i|i]; cbn [correct] in V; cbn [step].
  - (* new *)
    rename V into Vl. unfold new_with_free_func. cbn [add_blk].
    assert (v = [] \/ v <> []) as [->|Vn] by (destruct v; [left|right]; congruence).
    { eexists _, _. split; [reflexivity|]. cbn [after fst snd]. split; [apply (inv_add_blk h); exact I|]. split; [exact Cl|reflexivity]. }
    assert (0 < len v) as Lv. { destruct v; [congruence|]. rewrite len_cons. pose proof (len_nonneg v). lia. }
    replace (len v =? 0) with false by lia. eexists _, _. split; [reflexivity|]. cbn [after fst snd]. split; [|split; [|exact Vn]].
    + set (o := mkObj _ _ _ _ _).
      apply (inv_add (fst (add_blk h v)) nodes own o).
      * assert (match o_free o with KUnref p => p :: own | _ => own end = own) as -> by (destruct k; reflexivity). apply inv_add_blk. auto.
      * reflexivity.
      * unfold matches. cbn [o o_blk o_free o_off o_cnt n_blk n_up n_own n_vals]. split; auto. split; [destruct k; auto|]. split; auto. split; [lia|]. split; [lia|]. split; auto.
        exists v. cbn [add_blk fst blks]. rewrite nth_app_last, Nat.eqb_refl. split; auto. split; [lia|]. unfold slice. cbn. apply firstn_all2. unfold len in *. lia.
      * discriminate.
      * intros _ j m Nj Uj. destruct (inv_blk _ _ _ I j m Nj Uj) as (c & r & E & _). apply nth_lt in E. cbn [n_blk]. lia.
    + intros j o. cbn [objs]. rewrite nth_app_last. destruct (Nat.eqb j (length (objs h))); [|apply Cl]. intros E. injection E as <-. reflexivity.
  - (* slice *)
    destruct V as (Hi & Ho & Hn & He & Hb). destruct (ref_spec h nodes own i I Hi Hb) as (o & L & ER & I1).
    destruct (owned_live _ _ _ _ I Hi) as (o' & m & L' & Nm & M). assert (o' = o) as -> by (destruct L, L'; congruence).
    assert (M' := M). destruct M' as (M1 & M2 & M3 & M4 & M5 & M6 & c & M7 & M8 & M9).
    unfold new_from_ints, get. destruct L as (L1 & L2). rewrite L1. cbn [bind].
    destruct (off <? o_cnt o) eqn:E1.
    + rewrite ER. cbn [bind]. rewrite (u32_id (off + n)) by (unfold in_u32; lia). set (e := if off + n >? o_cnt o then o_cnt o else off + n).
      assert (e = Z.min (off + n) (len (n_vals m))) as He'. { unfold e. destruct (off + n >? o_cnt o) eqn:E2; lia. }
      rewrite (u32_id (e - off)) by (unfold in_u32; lia). unfold new_with_free_func.
      destruct (Z.eq_dec n 0) as [->|Hn0].
      { replace (e - off =? 0) with true by lia. eexists _, _. split; [reflexivity|]. cbn [after]. rewrite Nm. replace (off <? len (n_vals m)) with true by lia.
        cbn [fst snd]. split; [exact I1|]. split; [|eauto].
        intros j oj. cbn. rewrite nth_upd, L1. destruct (Nat.eqb i j); [|apply Cl]. intros E. injection E as <-. cbn. lia. }
      replace (e - off =? 0) with false by lia.
      eexists _, _. split; [reflexivity|]. cbn [after]. rewrite Nm. cbn [fst snd]. split; [|split].
      * set (h1 := set_obj _ _ _) in *. apply (inv_add h1 nodes own (mkObj (o_blk o) (o_off o + off) (e - off) 1 (KUnref i))).
        -- cbn [o_free]. auto.
        -- reflexivity.
        -- unfold matches. cbn [o_blk o_free o_off o_cnt n_blk n_up n_own n_vals]. split; auto. split; auto. split; [discriminate|]. split; [lia|]. split; [lia|].
           rewrite <- He'. split.
           ++ rewrite slice_len; lia.
           ++ exists c. split; auto. split; [lia|]. rewrite <- M9. rewrite slice_slice by lia. f_equal. lia.
        -- intros p Ep. cbn in Ep. injection Ep as <-. exists m. auto.
        -- discriminate.
      * intros j oj. cbn [objs]. rewrite nth_app_last. destruct (Nat.eqb j _); [intros E; injection E as <-; reflexivity|]. cbn. rewrite nth_upd, L1.
        destruct (Nat.eqb i j); [|apply Cl]. intros E. injection E as <-. cbn. lia.
      * exists m. split; auto. lia.
    + cbn [bind]. eexists _, _. split; [reflexivity|]. cbn [after fst snd]. rewrite Nm. replace (off <? len (n_vals m)) with false by lia. split; auto. split; auto.
      exists m. split; auto. lia.
  - (* ref *)
    destruct V as (Hi & Hb). destruct (ref_spec h nodes own i I Hi Hb) as (o & L & ER & I1). rewrite ER. cbn [bind].
    eexists _, _. split; [reflexivity|]. split; auto. split; auto. intros j oj. cbn. rewrite nth_upd. destruct L as (L1 & L2). rewrite L1.
    destruct (Nat.eqb i j); [|apply Cl]. intros E. injection E as <-. cbn. lia.
  - (* unref *)
    assert (inv h nodes (i :: drop i own)) as I1. { apply inv_perm with own; auto. intros j. rewrite occ_drop; auto. }
    destruct (owned_live _ _ _ _ I V) as (o & m & (L1 & _) & _). pose proof (nth_lt _ _ _ L1) as Lt.
    destruct (unref_spec nodes (length (objs h)) h (drop i own) i Lt I1) as (h' & E & I' & _ & _ & W). rewrite E. cbn [bind].
    eexists _, _. split; [reflexivity|]. split; auto. split; auto. intros j oj Hj. destruct (Z_lt_le_dec 0 (o_refs oj)); auto. apply (Cl j oj). apply W; auto.
  - (* to_data *)
    destruct V as (Hi & Hs).
    assert (inv h nodes (i :: drop i own)) as I1. { apply inv_perm with own; auto. intros j. rewrite occ_drop; auto. }
    destruct (owned_live _ _ _ _ I Hi) as (o & m & L & Nm & M). pose proof L as (L1 & L2). pose proof (nth_lt _ _ _ L1) as Lt.
    assert (M' := M). destruct M' as (M1 & M2 & M3 & M4 & M5 & M6 & c & M7 & M8 & M9).
    destruct (inv_refs _ _ _ I1 i o L) as (R1 & R2). rewrite occ_eqb_refl in R1. pose proof (occ_nonneg (drop i own) i). pose proof (kids_nonneg (objs h) i).
    assert (slice (n_vals m) 0 (o_cnt o) = n_vals m) as SF. { unfold slice. cbn [Z.to_nat skipn]. apply firstn_all2. unfold len in *. lia. }
    unfold unref_to_data, get. rewrite L1. cbn [bind]. rewrite s32_id by (unfold in_s32; lia).
    destruct (o_refs o - 1 =? 0) eqn:E.
    + assert (o_refs o = 1) as R by lia. replace (o_refs o - 1) with 0 by lia. set (h1 := set_obj h i (Some (set_refs o 0))).
      pose proof (read_matches h o m M) as RD. change (read h (o_blk o) (o_off o) (o_cnt o)) with (read h1 (o_blk o) (o_off o) (o_cnt o)) in RD.
      assert (nth_error (objs h1) i = Some (Some (set_refs o 0))) as Z1 by (cbn; rewrite nth_upd, Nat.eqb_refl, L1; auto).
      assert (forall j oj, j <> i -> nth_error (objs h1) j = Some (Some oj) -> 0 < o_refs oj) as Cl1.
      { intros j oj Nj. cbn. rewrite nth_upd. destruct (Nat.eqb_spec i j); [congruence|apply Cl]. }
      destruct (o_free o) as [| | |p] eqn:K.
      * exfalso. destruct M2 as (M2a & M2b). apply (last_needed h nodes (drop i own) i o I1 L R). apply (Hs m Nm M2a M2b).
      * destruct (inv_release 2 h nodes (drop i own) i o (or_intror eq_refl) I1 L R (or_introl K)) as (h2 & E2 & EO & I2). fold h1 in E2, EO.
        unfold give. rewrite E2. cbn [bind]. eexists _, _. split; [reflexivity|]. split; [apply inv_remove with (set_refs o 0); [exact I2|rewrite EO; exact Z1|reflexivity]|]. split.
        -- intros j oj. cbn. rewrite nth_upd. destruct (Nat.eqb_spec i j) as [<-|Nj]; [rewrite EO, Z1; discriminate|]. rewrite EO. apply Cl1. auto.
        -- exists m, c, 2. split; auto. unfold finish in E2. cbn [h1 set_obj blks] in E2. rewrite M7 in E2. change (0 =? 0) with true in E2. cbv iota in E2. injection E2 as <-.
           cbn [set_obj blks]. rewrite nth_upd, Nat.eqb_refl, M7. rewrite (M3 eq_refl) in *. split; auto. split; auto. split; auto. split; [lia|]. split.
           ++ rewrite <- M9. f_equal; lia.
           ++ right. destruct M2. repeat (split; auto). intros oj (Lj & _). cbn in Lj. rewrite !nth_upd, !Nat.eqb_refl, L1 in Lj. discriminate.
      * rewrite RD. cbn [bind]. unfold add_blk.
        destruct (inv_release 1 h nodes (drop i own) i o (or_introl eq_refl) I1 L R (or_intror K)) as (h2 & E2 & EO & I2). fold h1 in E2, EO.
        set (h1b := mkHeap (objs h1) (blks h1 ++ [(n_vals m, 0)])).
        assert (release h1b (o_blk o) = Ok (fst (add_blk h2 (n_vals m)))) as E3.
        { unfold release, finish in *. cbn [h1b h1 set_obj blks] in *. rewrite M7 in E2. change (0 =? 0) with true in E2. cbv iota in E2. injection E2 as <-.
          rewrite nth_error_app1 by (eapply nth_lt; eauto). rewrite M7. change (0 =? 0) with true. cbv iota. cbn [add_blk fst objs blks h1b h1 set_obj]. f_equal. f_equal.
          apply upd_app_l. eapply nth_lt; eauto. }
        rewrite E3. cbn [bind]. eexists _, _. split; [reflexivity|]. split; [|split].
        -- eapply inv_remove; [apply inv_add_blk; exact I2| |]; [cbn [add_blk fst objs]; rewrite EO; exact Z1|reflexivity].
        -- intros j oj. cbn. rewrite nth_upd. destruct (Nat.eqb_spec i j) as [<-|Nj]; [rewrite EO, Z1; discriminate|]. rewrite EO. apply Cl1. auto.
        -- exists m, (n_vals m), 0. split; auto. cbn [set_obj add_blk fst blks h1].
           assert (length (blks h2) = length (blks h)) as LB. { unfold finish in E2. cbn [h1 set_obj blks] in E2. rewrite M7 in E2. change (0 =? 0) with true in E2. cbv iota in E2. injection E2 as <-. cbn. apply upd_length. }
           rewrite nth_app_last, LB, Nat.eqb_refl. split; auto. split; auto. split; auto. split; [lia|]. split; auto.
      * rewrite RD. cbn [bind]. unfold add_blk.
        destruct (inv_pass h nodes (drop i own) i o p I1 L R K) as (I2 & Ltp). fold h1 in I2.
        set (h1b := mkHeap (objs h1) (blks h1 ++ [(n_vals m, 0)])).
        assert (inv h1b nodes (p :: drop i own)) as I3 by (apply (inv_add_blk h1); auto).
        destruct (unref_spec nodes (length (objs h1b)) h1b (drop i own) p) as (h3 & E3 & I4 & LB3 & F3 & W3); auto. { cbn. rewrite upd_length. lia. }
        assert (exists cc, nth_error (blks h3) (length (blks h)) = Some (n_vals m, cc) /\ cc = 0) as (cc & Ecc & Ecc0).
        { (* the copy is not touched *)
          assert (forall fuel h h' i b x, (forall j oj, nth_error (objs h) j = Some (Some oj) -> o_blk oj <> b) -> ints_unref fuel h i = Ok h' -> nth_error (blks h) b = x ->
             nth_error (blks h') b = x /\ forall j oj, nth_error (objs h') j = Some (Some oj) -> o_blk oj <> b) as NT.
          { clear. induction fuel; cbn [ints_unref]; intros h h' i b x NB E X; [discriminate|]. unfold get in E. destruct (nth_error (objs h) i) as [[o|]|] eqn:Ei; cbn [bind] in E; try discriminate.
            set (n := s32 (o_refs o - 1)) in *. set (h1 := set_obj h i (Some (set_refs o n))) in *.
            assert (forall j oj, nth_error (objs h1) j = Some (Some oj) -> o_blk oj <> b) as NB1.
            { intros j oj. cbn. rewrite nth_upd. destruct (Nat.eqb i j); [|apply NB]. rewrite Ei. intros Q. injection Q as <-. cbn. eapply NB. eauto. }
            assert (forall h2, nth_error (blks h2) b = x /\ (forall j oj, nth_error (objs h2) j = Some (Some oj) -> o_blk oj <> b) ->
                      nth_error (blks (set_obj h2 i None)) b = x /\ (forall j oj, nth_error (objs (set_obj h2 i None)) j = Some (Some oj) -> o_blk oj <> b)) as NR.
            { intros h2 (Q1 & Q2). split; auto. intros j oj. cbn. rewrite nth_upd. destruct (Nat.eqb i j); [|apply Q2]. destruct (nth_error (objs h2) i); discriminate. }
            assert (forall h2, release h1 (o_blk o) = Ok h2 -> nth_error (blks h2) b = x /\ (forall j oj, nth_error (objs h2) j = Some (Some oj) -> o_blk oj <> b)) as NF.
            { intros h2 Q. unfold release, finish in Q. destruct (nth_error (blks h1) (o_blk o)) as [(cc, rr)|] eqn:Eb; [|discriminate]. destruct (rr =? 0); [|discriminate]. injection Q as <-. split; auto.
              cbn [blks]. rewrite nth_upd. destruct (Nat.eqb_spec (o_blk o) b) as [Q|Q]; auto. exfalso. eapply NB; eauto. }
            destruct (n =? 0); [|injection E as <-; auto].
            destruct (o_free o) as [| | |p].
            - cbn [bind] in E. injection E as <-. apply NR. auto.
            - destruct (release h1 (o_blk o)) eqn:Er; cbn [bind] in E; [|discriminate]. injection E as <-. apply NR. auto.
            - destruct (release h1 (o_blk o)) eqn:Er; cbn [bind] in E; [|discriminate]. injection E as <-. apply NR. auto.
            - destruct (ints_unref fuel h1 p) eqn:Er; cbn [bind] in E; [|discriminate]. injection E as <-. apply NR. eapply IHfuel; eauto. }
          exists 0. split; auto. eapply (NT _ h1b h3 p (length (blks h))); [|exact E3|].
          - intros j oj Hj. cbn [h1b objs] in Hj.
            assert (exists oj0, nth_error (objs h) j = Some (Some oj0) /\ o_blk oj0 = o_blk oj) as (oj0 & Hj0 & Eb0).
            { cbn [h1 set_obj objs] in Hj. rewrite nth_upd in Hj. destruct (Nat.eqb_spec i j) as [<-|Nj]; [|eauto]. rewrite L1 in Hj. injection Hj as <-. eauto. }
            rewrite <- Eb0. pose proof (Cl _ _ Hj0) as P0. assert (live h j oj0) as Lj by (split; auto). destruct (live_lt _ _ _ _ _ I Lj) as (nj & Nj).
            destruct (inv_match _ _ _ I j oj0 nj Lj Nj) as (_ & _ & _ & _ & _ & _ & cj & Ecj & _). apply nth_lt in Ecj. lia.
          - cbn [h1b blks h1 set_obj]. rewrite nth_app_last, Nat.eqb_refl. auto. }
        assert (nth_error (objs h3) i = Some (Some (set_refs o 0))) as Z3 by (rewrite F3 by auto; exact Z1).
        rewrite E3. cbn [bind]. eexists _, _. split; [reflexivity|]. split; [eapply inv_remove; eauto|]. split.
        -- intros j oj. cbn. rewrite nth_upd. destruct (Nat.eqb_spec i j) as [<-|Nj]; [rewrite Z3; discriminate|]. intros Hj.
           destruct (Z_lt_le_dec 0 (o_refs oj)) as [|Q]; auto. apply (Cl1 j oj); auto.
        -- exists m, (n_vals m), 0. split; auto. cbn [set_obj blks]. split; [cbn [h1 set_obj blks]; congruence|]. split; auto. split; auto. split; [lia|]. split; auto.
    + pose proof (read_matches h o m M) as RD. set (h1 := set_obj h i (Some (set_refs o (o_refs o - 1)))).
      change (read h (o_blk o) (o_off o) (o_cnt o)) with (read h1 (o_blk o) (o_off o) (o_cnt o)) in RD. rewrite RD. cbn [bind]. unfold add_blk.
      eexists _, _. split; [reflexivity|]. cbn [after fst snd]. split; [|split].
      * apply (inv_add_blk h1). apply inv_set_refs with (i :: drop i own); auto; [lia|lia|]. intros j Nj. rewrite occ_ne; auto.
      * intros j oj. cbn. rewrite nth_upd, L1. destruct (Nat.eqb i j); [|apply Cl]. intros Q. injection Q as <-. cbn. lia.
      * exists m, (n_vals m), 0. split; auto. cbn [blks h1 set_obj]. rewrite nth_app_last, Nat.eqb_refl. split; auto. split; auto. split; auto. split; [lia|]. split; auto.
Qed.

(* ---------------- any number of calls ---------------- *)
Lemma history_inv h w : history h w -> inv h (fst w) (snd w) /\ clean h.
Proof.
  induction 1 as [|h [nodes own] c h' r Hh (I & Cl) V E].
  - split; [|intros [|j] o H; discriminate]. cbn. constructor; auto; cbn.
    + intros i o (H & _). destruct i; discriminate.
    + intros i H. cbn in H. lia.
    + intros i o n (H & _). destruct i; discriminate.
    + intros k n p H. destruct k; discriminate.
    + intros i j n m H. destruct i; discriminate.
    + intros k n H. destruct k; discriminate.
  - cbn [fst snd] in I. destruct (step_ok h nodes own c I Cl V) as (h2 & r2 & E2 & I2 & C2 & _). rewrite E in E2. injection E2 as <- <-. auto.
Qed.

Lemma desc_trans nodes k j n : nth_error nodes j = Some n -> n_up n = Some k -> forall l, desc nodes j l -> desc nodes k l.
Proof. intros N U l D. induction D; [|eapply desc_up; eauto]. eapply desc_up; eauto. apply desc_refl. Qed.

Lemma live_needed h nodes own : inv h nodes own -> forall m k, (length nodes - k <= m)%nat -> (exists o, live h k o) -> needed (nodes, own) k.
Proof.
  intros I m. induction m; intros k Hm (o & L).
  - destruct (live_lt _ _ _ _ _ I L) as (n & N). apply nth_lt in N. lia.
  - destruct (inv_refs _ _ _ I k o L) as (R & _). destruct L as (L1 & L2). destruct (Z_lt_le_dec 0 (occ own k)) as [Q|Q].
    + exists k. split; [apply occ_in; auto|apply desc_refl].
    + destruct (kids_pos (objs h) k) as (j & oj & Hj & Rj & Fj); [lia|]. assert (live h j oj) as Lj by (split; auto).
      destruct (live_lt _ _ _ _ _ I Lj) as (n & N). pose proof (inv_match _ _ _ I j oj n Lj N) as (_ & F & _). rewrite Fj in F.
      destruct (inv_up _ _ _ I j n k N F) as (Lt & _). pose proof (nth_lt _ _ _ N).
      destruct (IHm j) as (i & Hi & D); [lia|eauto|]. exists i. split; auto. eapply desc_trans; eauto.
Qed.

Lemma needed_live h nodes own k : inv h nodes own -> (needed (nodes, own) k <-> exists o, live h k o).
Proof.
  intros I. split; [|apply (live_needed h nodes own I (length nodes)); lia].
  intros (j & Hj & D). cbn [fst snd] in *. eapply desc_live; eauto. destruct (owned_live _ _ _ _ I Hj) as (o & n & L & _). eauto.
Qed.

Lemma inv_sound h nodes own : inv h nodes own -> clean h -> sound h (nodes, own).
Proof.
  intros I Cl. cbn [sound]. split; [|split].
  - intros j Hj. destruct (owned_live _ _ _ _ I Hj) as (o & n & (L1 & L2) & N & M). exists n. split; auto. unfold get_data, get. rewrite L1. cbn [bind]. apply read_matches. auto.
  - intros k Hk. rewrite (needed_live h nodes own k I). split; intros (o & H); exists o; [apply H|split; auto; eapply Cl; eauto].
  - intros k n N U. destruct (inv_blk _ _ _ I k n N U) as (c & r & E & R1 & R2). exists c, r. split; auto. rewrite (needed_live h nodes own k I). split; auto.
    intros Nl. apply R2. intros o L. apply Nl. eauto.
Qed.

(* the last reference to static data *)
Lemma to_data_static h nodes own i n : inv h nodes own -> In i own -> nth_error nodes i = Some n -> n_up n = None -> n_own n = false ->
  ~ needed (nodes, drop i own) i -> step h (CToData i) = Fail NullCall.
Proof.
  intros I Hi N U W X. assert (inv h nodes (i :: drop i own)) as I1. { apply inv_perm with own; auto. intros j. rewrite occ_drop; auto. }
  destruct (owned_live _ _ _ _ I Hi) as (o & m & L & Nm & M). assert (m = n) as -> by congruence. destruct M as (_ & F & _).
  assert (o_free o = KNull) as K by (destruct (o_free o); auto; try (destruct F; congruence); congruence).
  destruct (inv_refs _ _ _ I1 i o L) as (R1 & R2). rewrite occ_eqb_refl in R1. pose proof (occ_nonneg (drop i own) i). pose proof (kids_nonneg (objs h) i).
  assert (occ (drop i own) i = 0) as O0.
  { destruct (Z.eq_dec (occ (drop i own) i) 0); auto. exfalso. apply X. exists i. split; [apply occ_in; cbn; lia|apply desc_refl]. }
  assert (kids (objs h) i = 0) as K0.
  { destruct (Z.eq_dec (kids (objs h) i) 0); auto. exfalso. apply X. destruct (kids_pos (objs h) i) as (j & oj & Ej & Rj & Fj); [lia|].
    assert (live h j oj) as Lj by (split; auto). destruct (live_lt _ _ _ _ _ I Lj) as (nj & Nj). destruct (inv_match _ _ _ I j oj nj Lj Nj) as (_ & Fm & _). rewrite Fj in Fm.
    destruct (inv_up _ _ _ I j nj i Nj Fm) as (Lt & _).
    destruct (live_needed h nodes own I (length nodes) j ltac:(lia) (ex_intro _ oj Lj)) as (y & Hy & D). cbn [fst snd] in *.
    exists y. cbn [fst snd]. split; [|eapply desc_trans; eauto].
    assert (y <> i) as Ny.
    { intros ->. assert (forall x, desc nodes j x -> (j <= x)%nat) as Dl.
      { clear - I. intros x D. induction D as [|x p nx Nx Ux D IH]; auto. destruct (inv_up _ _ _ I x nx p Nx Ux). lia. }
      apply Dl in D. lia. }
    apply occ_in. apply occ_in in Hy. rewrite <- (occ_drop i own y Hi) in Hy. rewrite occ_ne in Hy by auto. exact Hy. }
  destruct L as (L1 & L2). cbn [step]. unfold unref_to_data, get. rewrite L1. cbn [bind]. rewrite s32_id by (unfold in_s32; lia).
  replace (o_refs o - 1 =? 0) with true by lia. rewrite K. reflexivity.
Qed.

(* blocks are less than 2^32 long *)
Lemma finish_fst how h b h' : finish how h b = Ok h' -> map fst (blks h') = map fst (blks h).
Proof.
  unfold finish. destruct (nth_error (blks h) b) as [(c, r)|] eqn:E; [|discriminate]. destruct (r =? 0); [|discriminate]. intros Q. injection Q as <-. cbn [blks].
  revert b E. induction (blks h) as [|x l IH]; intros [|b] E; cbn in *; try discriminate; [injection E as ->; reflexivity|]. f_equal. apply IH. exact E.
Qed.
Lemma unref_fst : forall fuel h i h', ints_unref fuel h i = Ok h' -> map fst (blks h') = map fst (blks h).
Proof.
  induction fuel; cbn [ints_unref]; intros h i h' E; [discriminate|]. destruct (get h i) as [o|]; cbn [bind] in E; [|discriminate].
  destruct (s32 (o_refs o - 1) =? 0); [|injection E as <-; reflexivity]. set (h1 := set_obj _ _ _) in *.
  destruct (o_free o) as [| | |p].
  - cbn [bind] in E. injection E as <-. reflexivity.
  - destruct (release h1 (o_blk o)) as [h2|] eqn:E2; cbn [bind] in E; [|discriminate]. injection E as <-. apply (finish_fst 1 h1 _ h2 E2).
  - destruct (release h1 (o_blk o)) as [h2|] eqn:E2; cbn [bind] in E; [|discriminate]. injection E as <-. apply (finish_fst 1 h1 _ h2 E2).
  - destruct (ints_unref fuel h1 p) as [h2|] eqn:E2; cbn [bind] in E; [|discriminate]. injection E as <-. apply (IHfuel h1 p h2 E2).
Qed.
Lemma read_len h b off n c : read h b off n = Ok c -> exists x, In x (map fst (blks h)) /\ len c <= len x.
Proof.
  unfold read. destruct (nth_error (blks h) b) as [(x, r)|] eqn:E; [|discriminate]. destruct (r =? 0); [|discriminate]. destruct ((0 <=? off) && (off + n <=? len x)) eqn:Q; [|discriminate].
  intros K. injection K as <-. exists x. split; [apply nth_error_In in E; apply (in_map fst) in E; exact E|].
  unfold slice, len. rewrite firstn_length, skipn_length. lia.
Qed.
Lemma history_blocks h w : history h w -> forall x, In x (map fst (blks h)) -> len x < 2^32.
Proof.
  induction 1 as [|h w c h' r Hh IH V E]; [contradiction|]. destruct w as (nodes, own).
  assert (forall v, len v < 2^32 -> forall x, In x (map fst (blks h ++ [(v, 0)])) -> len x < 2^32) as AD.
  { intros v Lv x. rewrite map_app. intros Hx. apply in_app_or in Hx. destruct Hx as [Hx|[<-|[]]]; auto. }
  destruct c as [k v|i off n|i|i|i]; cbn [step correct] in *.
  - cbn [add_blk] in E. unfold new_with_free_func in E. destruct (len v =? 0); injection E as <- _; exact (AD v V).
  - unfold new_from_ints in E. destruct (get h i) as [o|]; cbn [bind] in E; [|discriminate]. destruct (off <? o_cnt o); cbn [bind] in E; [|injection E as <- _; auto].
    unfold ints_ref in E. destruct (get h i); cbn [bind] in E; [|discriminate]. unfold new_with_free_func in E. destruct (_ =? 0); cbn [bind] in E; injection E as <- _; auto.
  - unfold ints_ref in E. destruct (get h i); cbn [bind] in E; [|discriminate]. injection E as <- _; auto.
  - destruct (ints_unref _ h i) as [h1|] eqn:E1; cbn [bind] in E; [|discriminate]. injection E as <- _. rewrite (unref_fst _ _ _ _ E1). auto.
  - unfold unref_to_data in E. destruct (get h i) as [o|]; cbn [bind] in E; [|discriminate].
    set (h1 := set_obj h i (Some (set_refs o (s32 (o_refs o - 1))))) in *.
    assert (forall cp, read h1 (o_blk o) (o_off o) (o_cnt o) = Ok cp -> len cp < 2^32) as RL.
    { intros cp R. destruct (read_len _ _ _ _ _ R) as (x & Hx & Lx). apply IH in Hx. lia. }
    destruct (s32 (o_refs o - 1) =? 0).
    + destruct (o_free o) as [| | |p]; [discriminate| | |].
      * destruct (give h1 (o_blk o)) as [h2|] eqn:E2; cbn [bind] in E; [|discriminate]. injection E as <- _. cbn [set_obj blks]. rewrite (finish_fst 2 h1 _ h2 E2). auto.
      * destruct (read h1 _ _ _) as [cp|]; cbn [bind add_blk] in E; [|discriminate]. destruct (release _ (o_blk o)) as [h2|] eqn:E2; cbn [bind] in E; [|discriminate].
        injection E as <- _. cbn [set_obj blks]. rewrite (finish_fst 1 _ _ h2 E2). apply AD. apply RL. reflexivity.
      * destruct (read h1 _ _ _) as [cp|]; cbn [bind add_blk] in E; [|discriminate]. destruct (ints_unref _ _ p) as [h2|] eqn:E2; cbn [bind] in E; [|discriminate].
        injection E as <- _. cbn [set_obj blks]. rewrite (unref_fst _ _ _ _ E2). apply AD. apply RL. reflexivity.
    + destruct (read h1 _ _ _) as [cp|]; cbn [bind add_blk] in E; [|discriminate]. injection E as <- _. apply AD. apply RL. reflexivity.
Qed.

Lemma slice_overflow h nodes own i off n v : inv h nodes own -> In i own -> (forall b c r, nth_error (blks h) b = Some (c, r) -> len c < 2^32) ->
  len own + len nodes < 2^31 - 1 -> get_data h i = Ok v -> 0 <= off < len v -> 0 <= n < 2^32 -> 2^32 <= off + n ->
  exists h' b, step h (CSlice i off n) = Ok (h', RNew (Some (length nodes)) b) /\ get_data h' (length nodes) = Fail OobRead.
Proof.
  intros I Hi Bl Hb G Ho Hn Ov. destruct (ref_spec h nodes own i I Hi Hb) as (o & L & ER & I1).
  destruct (owned_live _ _ _ _ I Hi) as (o' & m & L' & Nm & M). assert (o' = o) as -> by (destruct L, L'; congruence).
  pose proof (read_matches h o m M) as RD. destruct M as (M1 & M2 & M3 & M4 & M5 & M6 & c & M7 & M8 & M9).
  destruct L as (L1 & L2). unfold get_data, get in G. rewrite L1 in G. cbn [bind] in G. rewrite RD in G. injection G as <-.
  pose proof (Bl _ _ _ M7) as Lc. cbn [step]. unfold new_from_ints. unfold get at 1. rewrite L1. cbn [bind]. replace (off <? o_cnt o) with true by lia. rewrite ER. cbn [bind].
  assert (u32 (off + n) = off + n - 2^32) as E1.
  { unfold u32. replace (off + n) with (off + n - 2^32 + 1 * 2^32) at 1 by lia. rewrite Z.mod_add by lia. apply Z.mod_small. lia. }
  rewrite E1. replace (off + n - 2^32 >? o_cnt o) with false by lia. unfold new_with_free_func.
  assert (u32 (off + n - 2^32 - off) = n) as E2.
  { unfold u32. replace (off + n - 2^32 - off) with (n + -1 * 2^32) by lia. rewrite Z.mod_add by lia. apply Z.mod_small. lia. }
  rewrite E2. replace (n =? 0) with false by lia. cbn [bind]. cbn [set_obj objs blks].
  assert (length (upd (objs h) i (Some (set_refs o (o_refs o + 1)))) = length nodes) as LN by (rewrite upd_length; apply (inv_len _ _ _ I)).
  rewrite LN. eexists _, _. split; [reflexivity|]. unfold get_data, get. cbn [objs]. rewrite <- LN, nth_error_app2 by lia. rewrite Nat.sub_diag. cbn [nth_error bind].
  unfold read. cbn [o_blk o_off o_cnt blks]. rewrite M7. change (0 =? 0) with true. cbv iota. replace (o_off o + off + n <=? len c) with false by lia. rewrite andb_false_r. reflexivity.
Qed.

Lemma get_data_vals h nodes own i v : inv h nodes own -> In i own -> get_data h i = Ok v -> exists n, nth_error nodes i = Some n /\ n_vals n = v.
Proof.
  intros I Hi E. destruct (owned_live _ _ _ _ I Hi) as (o & n & (L1 & L2) & N & M). exists n. split; auto.
  unfold get_data, get in E. rewrite L1 in E. cbn [bind] in E. rewrite (read_matches h o n M) in E. congruence.
Qed.

Lemma node_blk_lt h nodes own : inv h nodes own -> forall j n, nth_error nodes j = Some n -> (n_blk n < length (blks h))%nat.
Proof.
  intros I j. induction j as [j IH] using lt_wf_ind. intros n N. destruct (n_up n) as [p|] eqn:U.
  - destruct (inv_up _ _ _ I j n p N U) as (Lt & m & Nm & B). rewrite <- B. eauto.
  - destruct (inv_blk _ _ _ I j n N U) as (c & r & E & _). eapply nth_lt. eauto.
Qed.

(* which blocks are given to the caller *)
Lemma unref_given : forall fuel h i h' b c, ints_unref fuel h i = Ok h' -> nth_error (blks h') b = Some (c, 2) -> nth_error (blks h) b = Some (c, 2).
Proof.
  induction fuel; cbn [ints_unref]; intros h i h' b c E; [discriminate|]. destruct (get h i) as [o|]; cbn [bind] in E; [|discriminate].
  set (n := s32 (o_refs o - 1)) in *. set (h1 := set_obj h i (Some (set_refs o n))) in *.
  assert (forall h2, release h1 (o_blk o) = Ok h2 -> nth_error (blks h2) b = Some (c, 2) -> nth_error (blks h) b = Some (c, 2)) as NF.
  { intros h2 Q. unfold release, finish in Q. destruct (nth_error (blks h1) (o_blk o)) as [(cc, rr)|] eqn:Eb; [|discriminate]. destruct (rr =? 0); [|discriminate]. injection Q as <-.
    cbn [blks]. rewrite nth_upd. destruct (Nat.eqb (o_blk o) b); auto. change (blks h1) with (blks h) in Eb |- *. rewrite Eb. discriminate. }
  destruct (n =? 0); [|injection E as <-; auto].
  destruct (o_free o) as [| | |p].
  - cbn [bind] in E. injection E as <-. auto.
  - destruct (release h1 (o_blk o)) eqn:Er; cbn [bind] in E; [|discriminate]. injection E as <-. intros H. eapply NF; eauto.
  - destruct (release h1 (o_blk o)) eqn:Er; cbn [bind] in E; [|discriminate]. injection E as <-. intros H. eapply NF; eauto.
  - destruct (ints_unref fuel h1 p) eqn:Er; cbn [bind] in E; [|discriminate]. injection E as <-. intros H. apply (IHfuel h1 p _ b c Er) in H. auto.
Qed.

(* ---------------- order ---------------- *)
Lemma first_diff_lexc : forall n a b, n = Nat.min (length a) (length b) ->
  let d := first_diff (firstn n a) (firstn n b) in
  (d < 0 -> lexc a b = Lt) /\ (0 < d -> lexc a b = Gt) /\ (d = 0 -> lexc a b = (len a ?= len b)).
Proof.
  induction n; intros a b Hn d.
  - subst d. destruct a, b; cbn in Hn; try discriminate; cbn [firstn first_diff lexc]; repeat split; try lia.
  - destruct a as [|x a], b as [|y b]; cbn in Hn; try discriminate. subst d. cbn [firstn first_diff lexc].
    destruct (IHn a b ltac:(lia)) as (H1 & H2 & H3). destruct (Z.eqb_spec x y) as [->|N].
    + rewrite Z.compare_refl. rewrite !len_cons. repeat split; auto. intros Hd. rewrite H3 by auto. destruct (Z.compare_spec (len a) (len b)); symmetry; [apply Z.compare_eq_iff|apply Z.compare_lt_iff|apply Z.compare_gt_iff]; lia.
    + destruct (Z.compare_spec x y); repeat split; try lia; auto.
Qed.

Lemma le_bytes_length n : forall w, length (le_bytes n w) = n.
Proof. induction n; intros; cbn; auto. Qed.
Lemma int_bytes_length big v : length (int_bytes big v) = 4%nat.
Proof. unfold int_bytes. destruct big; rewrite ?rev_length; apply le_bytes_length. Qed.
Lemma le_bytes_inj n : forall v w, 0 <= v < 256 ^ Z.of_nat n -> 0 <= w < 256 ^ Z.of_nat n -> le_bytes n v = le_bytes n w -> v = w.
Proof.
  induction n; intros v w Hv Hw E; [cbn in *; lia|]. rewrite Nat2Z.inj_succ, Z.pow_succ_r in Hv, Hw by lia.
  cbn [le_bytes] in E. injection E as E1 E2. apply IHn in E2; [|split; [apply Z.div_pos; lia|apply Z.div_lt_upper_bound; lia]..]. lia.
Qed.
Lemma int_bytes_inj big v w : in_s32 v -> in_s32 w -> int_bytes big v = int_bytes big w -> v = w.
Proof.
  unfold in_s32, int_bytes. intros Hv Hw E. assert (le_bytes 4 (u32 v) = le_bytes 4 (u32 w)) as E'. { destruct big; auto. rewrite <- (rev_involutive (le_bytes 4 (u32 v))), E. apply rev_involutive. }
  apply le_bytes_inj in E'; [|change (256 ^ Z.of_nat 4) with (2^32); unfold u32; apply Z.mod_pos_bound; lia..]. unfold u32 in E'. lia.
Qed.
Lemma ints_bytes_length big l : len (ints_bytes big l) = 4 * len l.
Proof.
  induction l as [|x l IH]; [reflexivity|]. cbn [ints_bytes flat_map]. rewrite len_app, len_cons. fold (ints_bytes big l). rewrite IH.
  assert (len (int_bytes big x) = 4) as -> by (unfold len; rewrite int_bytes_length; reflexivity). lia.
Qed.
Lemma app_inj {A} (a b c d : list A) : length a = length b -> a ++ c = b ++ d -> a = b /\ c = d.
Proof. revert b. induction a; intros [|y b] H E; try discriminate; auto. cbn in E. injection E as -> E. destruct (IHa b ltac:(auto) E). subst. auto. Qed.
Lemma ints_bytes_inj big : forall a b, Forall in_s32 a -> Forall in_s32 b -> ints_bytes big a = ints_bytes big b -> a = b.
Proof.
  induction a as [|x a IH]; intros [|y b] Fa Fb E; auto.
  - apply (f_equal len) in E. rewrite !ints_bytes_length, len_cons in E. pose proof (len_nonneg b). change (len (@nil Z)) with 0 in E. lia.
  - apply (f_equal len) in E. rewrite !ints_bytes_length, len_cons in E. pose proof (len_nonneg a). change (len (@nil Z)) with 0 in E. lia.
  - cbn [ints_bytes flat_map] in E. apply app_inj in E; [|rewrite !int_bytes_length; auto]. destruct E as (E1 & E2).
    f_equal; [exact (int_bytes_inj big x y (Forall_inv Fa) (Forall_inv Fb) E1)|]. exact (IH b (Forall_inv_tail Fa) (Forall_inv_tail Fb) E2).
Qed.

Lemma compare_lexc big p q : valid_ptr p -> valid_ptr q -> coherent p q ->
  exists c, ints_compare big p q = Ok c /\ Z.sgn c = sign_of (lexc (ints_bytes big (contents p)) (ints_bytes big (contents q))).
Proof.
  destruct p as [[a x]|], q as [[b y]|]; cbn [valid_ptr coherent contents ints_compare].
  - intros (Nx & Lx & Fx) (Ny & Ly & Fy) Co. destruct (Z.eqb_spec a b) as [->|N].
    + rewrite (Co eq_refl). exists 0. rewrite lexc_refl. auto.
    + unfold memcmp_ints, memcmp. pose proof (len_nonneg x). pose proof (len_nonneg y).
      rewrite !ints_bytes_length. replace (u64 (Z.min (len x) (len y) * 4)) with (Z.min (len x) (len y) * 4) by (unfold u64; rewrite Z.mod_small; lia).
      replace ((_ <=? _) && (_ <=? _)) with true by lia. cbn [bind].
      destruct (first_diff_lexc (Z.to_nat (Z.min (len x) (len y) * 4)) (ints_bytes big x) (ints_bytes big y)) as (H1 & H2 & H3).
      { pose proof (ints_bytes_length big x) as Q1. pose proof (ints_bytes_length big y) as Q2. unfold len in *. lia. }
      set (d := first_diff _ _) in *. rewrite !ints_bytes_length in H3.
      destruct (Z.compare_spec d 0) as [Hd|Hd|Hd].
      * rewrite H3 by auto. replace (d =? 0) with true by lia. cbn [negb orb]. destruct (Z.eqb_spec (len x) (len y)) as [E|E].
        -- exists d. rewrite E, Z.compare_refl, Hd. auto.
        -- destruct (Z.compare_spec (4 * len x) (4 * len y)); [lia| |]; [replace (len x >? len y) with false by lia|replace (len x >? len y) with true by lia]; eexists; split; reflexivity.
      * rewrite H1 by auto. replace (d =? 0) with false by lia. exists d. split; auto. cbn. lia.
      * rewrite H2 by auto. replace (d =? 0) with false by lia. exists d. split; auto. cbn. lia.
  - intros (Nx & _) _ _. exists 1. split; auto. destruct x as [|x0 x]; [congruence|]. cbn [ints_bytes flat_map]. pose proof (int_bytes_length big x0). destruct (int_bytes big x0); [discriminate|reflexivity].
  - intros _ (Ny & _) _. exists (-1). split; auto. destruct y as [|x0 x]; [congruence|]. cbn [ints_bytes flat_map]. pose proof (int_bytes_length big x0). destruct (int_bytes big x0); [discriminate|reflexivity].
  - intros. exists 0. auto.
Qed.

Lemma equal_contents big p q : valid_ptr p -> valid_ptr q -> coherent p q ->
  exists b : bool, ints_equal big p q = Ok b /\ (b = true <-> contents p = contents q).
Proof.
  destruct p as [[a x]|], q as [[b y]|]; cbn [valid_ptr coherent contents ints_equal].
  - intros (Nx & Lx & Fx) (Ny & Ly & Fy) Co. destruct (Z.eqb_spec a b) as [->|N]; [exists true; rewrite (Co eq_refl); tauto|].
    destruct (Z.eqb_spec (len x) (len y)) as [E|E].
    + unfold memcmp_ints, memcmp. pose proof (len_nonneg x). rewrite !ints_bytes_length. replace (u64 (len x * 4)) with (len x * 4) by (unfold u64; rewrite Z.mod_small; lia).
      replace ((_ <=? _) && (_ <=? _)) with true by lia. cbn [bind]. eexists. split; [reflexivity|].
      destruct (first_diff_lexc (Z.to_nat (len x * 4)) (ints_bytes big x) (ints_bytes big y)) as (H1 & H2 & H3).
      { pose proof (ints_bytes_length big x) as Q1. pose proof (ints_bytes_length big y) as Q2. unfold len in *. lia. }
      set (d := first_diff _ _) in *. split.
      * intros Hd. apply (ints_bytes_inj big); auto. apply lexc_eq. rewrite H3 by lia. rewrite !ints_bytes_length, E. apply Z.compare_refl.
      * intros ->. rewrite lexc_refl in *. destruct (Z.compare_spec d 0); [lia| |]; [discriminate H1; auto|discriminate H2; auto].
    + exists false. split; auto. split; [discriminate|]. intros ->. congruence.
  - intros (Nx & _) _ _. exists false. split; auto. split; [discriminate|congruence].
  - intros _ (Nx & _) _. exists false. split; auto. split; [discriminate|]. intros <-. congruence.
  - intros. exists true. tauto.
Qed.

(* numeric order *)
Lemma rev_bytes_order n : forall x y, 0 <= x < 256 ^ Z.of_nat n -> 0 <= y < 256 ^ Z.of_nat n -> lexc (rev (le_bytes n x)) (rev (le_bytes n y)) = (x ?= y).
Proof.
  induction n; intros x y Hx Hy.
  - cbn in *. symmetry. apply Z.compare_eq_iff. lia.
  - rewrite Nat2Z.inj_succ, Z.pow_succ_r in Hx, Hy by lia. cbn [le_bytes rev]. rewrite lexc_app by (rewrite !rev_length, !le_bytes_length; auto).
    rewrite IHn; [|split; [apply Z.div_pos; lia|apply Z.div_lt_upper_bound; lia]..]. cbn [lexc].
    destruct (Z.compare_spec (x / 256) (y / 256)), (Z.compare_spec (x mod 256) (y mod 256)); symmetry;
      first [apply Z.compare_eq_iff; lia|apply Z.compare_lt_iff; lia|apply Z.compare_gt_iff; lia].
Qed.

Definition orderly (big : bool) (v : Z) : Prop := if big then 0 <= v < 2^31 else 0 <= v < 256.

Lemma int_bytes_order big x y : orderly big x -> orderly big y -> lexc (int_bytes big x) (int_bytes big y) = (x ?= y).
Proof.
  unfold orderly, int_bytes. intros Hx Hy. destruct big.
  - rewrite !u32_id by (unfold in_u32; lia). apply rev_bytes_order; change (256 ^ Z.of_nat 4) with (2^32); lia.
  - rewrite !u32_id by (unfold in_u32; lia). cbn [le_bytes lexc]. rewrite !(Z.mod_small _ 256), !(Z.div_small _ 256) by lia. cbn. destruct (x ?= y); auto.
Qed.

Lemma ints_bytes_order big : forall a b, Forall (orderly big) a -> Forall (orderly big) b -> lexc (ints_bytes big a) (ints_bytes big b) = lexc a b.
Proof.
  induction a as [|x a IH]; intros [|y b] Fa Fb; auto.
  - cbn [ints_bytes flat_map]. pose proof (int_bytes_length big y). destruct (int_bytes big y); [discriminate|reflexivity].
  - cbn [ints_bytes flat_map]. pose proof (int_bytes_length big x). destruct (int_bytes big x); [discriminate|reflexivity].
  - cbn [ints_bytes flat_map]. rewrite lexc_app by (rewrite !int_bytes_length; auto). rewrite (int_bytes_order big x y (Forall_inv Fa) (Forall_inv Fb)). cbn [lexc].
    destruct (x ?= y); auto. exact (IH b (Forall_inv_tail Fa) (Forall_inv_tail Fb)).
Qed.

Lemma four_bytes a b c d : 0 <= a < 256 -> 0 <= b < 256 -> 0 <= c < 256 -> 0 <= d < 256 ->
  le_bytes 4 (a * 2^24 + b * 2^16 + c * 2^8 + d) = [d; c; b; a].
Proof.
  intros Ha Hb Hc Hd. cbn [le_bytes].
  assert (forall x y, 0 <= y < 256 -> (x * 256 + y) mod 256 = y /\ (x * 256 + y) / 256 = x) as D.
  { intros x y Hy. split; [rewrite Z.add_comm, Z.mod_add by lia; apply Z.mod_small; lia|rewrite Z.div_add_l by lia; rewrite Z.div_small by lia; lia]. }
  replace (a * 2^24 + b * 2^16 + c * 2^8 + d) with (((a * 256 + b) * 256 + c) * 256 + d) by lia.
  rewrite !(proj2 (D _ _ Hd)), (proj1 (D _ _ Hd)), (proj2 (D _ _ Hc)), (proj1 (D _ _ Hc)), (proj2 (D _ _ Hb)), (proj1 (D _ _ Hb)).
  rewrite (Z.mod_small a 256) by lia. reflexivity.
Qed.

Lemma int_bytes_key big v : int_bytes big v = rev (le_bytes 4 (order_key big v)) /\ 0 <= order_key big v < 256 ^ Z.of_nat 4.
Proof.
  unfold int_bytes, order_key. change (256 ^ Z.of_nat 4) with (2^32). destruct big.
  - unfold u32. split; [reflexivity|apply Z.mod_pos_bound; lia].
  - pose proof (Z.mod_pos_bound v 256 ltac:(lia)) as H0. pose proof (Z.mod_pos_bound (v / 2^8) 256 ltac:(lia)) as H1.
    pose proof (Z.mod_pos_bound (v / 2^16) 256 ltac:(lia)) as H2. pose proof (Z.mod_pos_bound (v / 2^24) 256 ltac:(lia)) as H3.
    split; [|lia]. rewrite four_bytes by lia. cbn [rev app].
    replace (u32 v) with ((v / 2^24 mod 256) * 2^24 + (v / 2^16 mod 256) * 2^16 + (v / 2^8 mod 256) * 2^8 + v mod 256); [apply four_bytes; lia|].
    unfold u32. change (2^32) with 4294967296. change (2^24) with 16777216. change (2^16) with 65536. change (2^8) with 256.
    pose proof (Z.div_mod v 256 ltac:(lia)). pose proof (Z.div_mod (v / 256) 256 ltac:(lia)). pose proof (Z.div_mod (v / 65536) 256 ltac:(lia)).
    pose proof (Z.div_mod (v / 16777216) 256 ltac:(lia)).
    rewrite !Z.div_div in * by lia. change (256 * 256) with 65536 in *. change (65536 * 256) with 16777216 in *. change (16777216 * 256) with 4294967296 in *.
    pose proof (Z.div_mod v 4294967296 ltac:(lia)). change (2^24) with 16777216 in *. change (2^16) with 65536 in *. change (2^8) with 256 in *. lia.
Qed.

Lemma ints_bytes_exact big : forall a b, lexc (ints_bytes big a) (ints_bytes big b) = lexc (map (order_key big) a) (map (order_key big) b).
Proof.
  induction a as [|x a IH]; intros [|y b]; auto; cbn [ints_bytes flat_map map].
  - pose proof (int_bytes_length big y). destruct (int_bytes big y); [discriminate|reflexivity].
  - pose proof (int_bytes_length big x). destruct (int_bytes big x); [discriminate|reflexivity].
  - rewrite lexc_app by (rewrite !int_bytes_length; auto). destruct (int_bytes_key big x) as (Ex & Bx), (int_bytes_key big y) as (Ey & By).
    rewrite Ex, Ey, rev_bytes_order by assumption. cbn [lexc]. destruct (_ ?= _); auto. apply IH.
Qed.

(* ---------------- searching ---------------- *)
Lemma ifind_none l : forall i v, ~ In v l -> ifind_loop l i v = -1.
Proof. induction l; cbn; intros i v H; auto. destruct (Z.eqb_spec a v); [tauto|]. apply IHl. tauto. Qed.
Lemma ifind_at pre v : forall l i, ~ In v pre -> 0 <= i -> i + len pre < 2^32 -> ifind_loop (pre ++ v :: l) i v = s32 (i + len pre).
Proof.
  induction pre as [|a pre IH]; intros l i H Hi Hb; cbn [app ifind_loop].
  - rewrite Z.eqb_refl. f_equal. cbn. lia.
  - rewrite len_cons in *. pose proof (len_nonneg pre). destruct (Z.eqb_spec a v); [cbn in H; tauto|]. rewrite u32_id by (unfold in_u32; lia).
    rewrite IH; [f_equal; lia|cbn in H; tauto|lia|lia].
Qed.
