(* Proofs about the ring: refinement to a deque *)
From Verif Require Import Base RingModel RingSpec.
From Coq Require Import ZifyBool.
Ltac Zify.zify_post_hook ::= Z.div_mod_to_equations.

Ltac simp := cbn [ref_count alloc maxsiz start end_ data free_func gone freed
  set_se set_buf set_max set_ff set_refs set_gone log_free items bound fn refs with_items bind] in *.

(* ---------------- small facts ---------------- *)

Lemma arith_ok d z : -2^31 <= z < 2^31 -> arith32 d z = Ok z.
Proof.
  intros H. destruct d; unfold arith32.
  - replace ((-2^31 <=? z) && (z <? 2^31)) with true by lia. reflexivity.
  - rewrite s32_id by exact H. reflexivity.
Qed.

Definition at_ (a s i : Z) : Z := if s + i <? a then s + i else s + i - a.

Lemma crem_wrap a b : 0 < b -> 0 <= a < 2 * b -> crem a b = Ok (if a <? b then a else a - b).
Proof.
  intros H1 H2. unfold crem. replace (b =? 0) with false by lia.
  rewrite Z.rem_mod_nonneg by lia. f_equal.
  destruct (Z.ltb_spec a b).
  - apply Z.mod_small. lia.
  - symmetry. apply Z.mod_unique with (q := 1); lia.
Qed.

Lemma cell_some l i x : cell l i = Ok x <-> 0 <= i /\ nth_error l (Z.to_nat i) = Some (Some x).
Proof.
  unfold cell. split.
  - destruct (rd l i) as [c|] eqn:E; cbn [bind]; [|discriminate]. apply rd_ok in E.
    destruct c; [|discriminate]. intros H. inversion H; subst. exact E.
  - intros H. apply rd_ok in H. rewrite H. reflexivity.
Qed.
Lemma cell_in l i x : cell l i = Ok x -> 0 <= i < len l.
Proof.
  rewrite cell_some. intros [H E]. split; auto. unfold len.
  assert (Z.to_nat i < length l)%nat by (apply nth_error_Some; congruence). lia.
Qed.

Lemma cell_upd_eq l i x : 0 <= i < len l -> cell (upd l (Z.to_nat i) (Some x)) i = Ok x.
Proof.
  intros H. apply cell_some. split; [lia|]. apply nth_error_upd_eq. unfold len in H. lia.
Qed.
Lemma cell_upd_ne l i j x : 0 <= i -> i <> j -> cell (upd l (Z.to_nat i) (Some x)) j = cell l j.
Proof.
  intros Hi H. unfold cell, rd. rewrite len_upd.
  destruct ((0 <=? j) && (j <? len l)) eqn:E; [|reflexivity].
  rewrite nth_error_upd_ne by lia. reflexivity.
Qed.

Lemma g_new_ok L n : 0 <= n <= L -> g_new L n = Ok (repeat None (Z.to_nat n)).
Proof. intros H. unfold g_new. replace ((0 <=? n) && (n <=? L)) with true by lia. reflexivity. Qed.
Lemma g_new_cases L n : (0 <= n <= L /\ g_new L n = Ok (repeat None (Z.to_nat n))) \/
  (~ (0 <= n <= L) /\ g_new L n = Fail AllocAbort).
Proof.
  destruct ((0 <=? n) && (n <=? L)) eqn:E; [left|right]; (split; [lia|]); unfold g_new; rewrite E; reflexivity.
Qed.
Lemma len_repeat {A} (a : A) n : len (repeat a n) = Z.of_nat n.
Proof. unfold len. rewrite repeat_length. reflexivity. Qed.


Lemma nth_error_skipn' {A} (l : list A) n i : nth_error (skipn n l) i = nth_error l (n + i).
Proof. revert l; induction n; intros l; cbn; auto. destruct l; auto. destruct i; reflexivity. Qed.
Lemma nth_error_firstn' {A} (l : list A) n i : (i < n)%nat -> nth_error (firstn n l) i = nth_error l i.
Proof. revert l i; induction n; intros l i H; [lia|]. destruct l; [destruct i; reflexivity|]. destruct i; cbn; auto. apply IHn. lia. Qed.
Lemma nth_error_slice {A} (l : list A) a b i :
  (i < Z.to_nat (b - a))%nat -> nth_error (slice l a b) i = nth_error l (Z.to_nat a + i).
Proof. unfold slice. intros H. rewrite nth_error_firstn' by exact H. apply nth_error_skipn'. Qed.

Lemma memcpy_ok dst doff src soff n :
  0 <= n -> 0 <= soff -> soff + n <= len src -> 0 <= doff -> doff + n <= len dst ->
  exists buf, memcpy dst doff src soff n = Ok buf /\ len buf = len dst /\
    (forall j, doff <= j < doff + n -> cell buf j = cell src (soff + (j - doff))) /\
    (forall j, ~ (doff <= j < doff + n) -> cell buf j = cell dst j).
Proof.
  intros H1 H2 H3 H4 H5. unfold memcpy.
  replace ((0 <=? n) && (0 <=? soff) && (soff + n <=? len src)) with true by lia.
  replace ((0 <=? doff) && (doff + n <=? len dst)) with true by lia.
  eexists. split; [reflexivity|].
  set (A := firstn (Z.to_nat doff) dst). set (B := slice src soff (soff + n)).
  set (C := skipn (Z.to_nat (doff + n)) dst).
  assert (len A = doff) as LA by (unfold A, len in *; rewrite firstn_length; lia).
  assert (len B = n) as LB by (unfold B; rewrite slice_len; lia).
  assert (len (A ++ B ++ C) = len dst) as LL.
  { rewrite !len_app, LA, LB. unfold C, len in *. rewrite skipn_length. lia. }
  split; [exact LL|]. unfold cell, rd. rewrite LL.
  split; intros j Hj.
  - replace ((0 <=? j) && (j <? len dst)) with true by lia.
    replace ((0 <=? soff + (j - doff)) && (soff + (j - doff) <? len src)) with true by lia.
    unfold len in LA, LB.
    rewrite nth_error_app2 by lia. rewrite nth_error_app1 by lia.
    unfold B. rewrite nth_error_slice by lia.
    replace (Z.to_nat soff + (Z.to_nat j - length A))%nat with (Z.to_nat (soff + (j - doff))) by lia.
    reflexivity.
  - destruct ((0 <=? j) && (j <? len dst)) eqn:E; [|reflexivity].
    unfold len in LA, LB.
    assert (nth_error (A ++ B ++ C) (Z.to_nat j) = nth_error dst (Z.to_nat j)) as ->; [|reflexivity].
    destruct (Z.lt_ge_cases j doff).
    + rewrite nth_error_app1 by lia. unfold A. apply nth_error_firstn'. lia.
    + rewrite nth_error_app2 by lia. rewrite nth_error_app2 by lia.
      unfold C. rewrite nth_error_skipn'. f_equal. lia.
Qed.

(* ---------------- the representation ---------------- *)

Definition layout (a s e : Z) (d : list (option Z)) (l : list Z) : Prop :=
  (l = [] /\ s = -1 /\ e = -1) \/
  (l <> [] /\ 0 <= s < a /\ len l <= a /\
   (e = at_ a s (len l) \/ (a = 1 /\ s = 0 /\ e = 1 /\ len l = 1)) /\
   forall i x, 0 <= i -> nth_error l (Z.to_nat i) = Some x -> cell d (at_ a s i) = Ok x).

Record rep (L : Z) (flat : bool) (r : ring) (q : deque) : Prop := mkRep {
  rp_refs : ref_count r = refs q;
  rp_gone : gone r = false;
  rp_max : maxsiz r = bound q;
  rp_maxr : -1 <= bound q < 2^31;
  rp_fn : free_func r = fn q;
  rp_alloc : 0 <= alloc r <= L;
  rp_len : len (data r) <= alloc r;
  rp_flat : flat = false -> len (data r) = alloc r;
  rp_lay : layout (alloc r) (start r) (end_ r) (data r) (items q)
}.

Lemma len_pos {A} (l : list A) : l <> [] -> 1 <= len l.
Proof. destruct l; [congruence|]. rewrite len_cons. pose proof (len_nonneg l). lia. Qed.
Lemma len_zero {A} (l : list A) : len l = 0 -> l = [].
Proof. destruct l; auto. rewrite len_cons. pose proof (len_nonneg l). lia. Qed.

Lemma nth_error_len {A} (l : list A) i : 0 <= i < len l -> exists x, nth_error l (Z.to_nat i) = Some x.
Proof.
  intros H. destruct (nth_error l (Z.to_nat i)) eqn:E; eauto.
  apply nth_error_None in E. unfold len in H. lia.
Qed.
Lemma nth_error_bound {A} (l : list A) i x : 0 <= i -> nth_error l (Z.to_nat i) = Some x -> i < len l.
Proof.
  intros H E. assert (Z.to_nat i < length l)%nat by (apply nth_error_Some; congruence). unfold len. lia.
Qed.

Lemma layout_size d r l L : layout (alloc r) (start r) (end_ r) (data r) l ->
  0 <= alloc r <= L -> L < 2^30 -> size d r = Ok (len l).
Proof.
  intros [(-> & Hs & He)|(Hl & Hs & Hn & He & _)] HA HL; unfold size.
  - rewrite Hs. reflexivity.
  - apply len_pos in Hl. replace (start r >=? 0) with true by lia.
    unfold at_ in He.
    assert (0 <= end_ r <= alloc r).
    { destruct He as [He|He]; [|lia]. destruct (start r + len l <? alloc r) eqn:E; lia. }
    destruct (start r >? end_ r) eqn:E1.
    + rewrite arith_ok by lia. cbn [bind]. rewrite arith_ok by lia.
      destruct He as [He|He]; [|lia]. destruct (start r + len l <? alloc r) eqn:E; f_equal; lia.
    + destruct (end_ r >? start r) eqn:E2.
      * rewrite arith_ok by lia. destruct He as [He|He]; [|f_equal; lia].
        destruct (start r + len l <? alloc r) eqn:E; f_equal; lia.
      * destruct He as [He|He]; [|lia]. destruct (start r + len l <? alloc r) eqn:E; f_equal; lia.
Qed.

Lemma rep_size L flat d r q : rep L flat r q -> L < 2^30 -> size d r = Ok (len (items q)).
Proof. intros R HL. apply (layout_size d r (items q) L); try apply R; auto. Qed.

(* used cells exist *)
Lemma layout_cells a s e d l i : layout a s e d l -> 0 <= i < len l -> 0 <= at_ a s i < len d.
Proof.
  intros [(-> & _)|(Hl & Hs & Hn & He & Hc)] Hi; [cbn in Hi; lia|].
  destruct (nth_error_len l i Hi) as (x & Hx).
  apply (cell_in _ _ x). apply Hc; auto. lia.
Qed.

(* ---------------- removing from the front ---------------- *)

Lemma layout_front a s e d x t : layout a s e d (x :: t) -> 
  cell d s = Ok x /\ 0 <= s < a /\
  match t with
  | [] => e = s + 1 \/ (e = 0 /\ s = a - 1)
  | _ => e <> s + 1 /\ e <> (if s + 1 <? a then s + 1 else 0) /\ 0 <= e < a /\
         layout a (if s + 1 <? a then s + 1 else 0) e d t
  end.
Proof.
  intros [(H & _)|(Hl & Hs & Hn & He & Hc)]; [discriminate|].
  split; [|split; [lia|]].
  { specialize (Hc 0 x ltac:(lia) eq_refl). unfold at_ in Hc.
    replace (s + 0 <? a) with true in Hc by lia. rewrite Z.add_0_r in Hc. exact Hc. }
  rewrite len_cons in *. destruct t as [|y t].
  { rewrite len_nil in *. unfold at_ in He. destruct (s + (1 + 0) <? a) eqn:E; lia. }
  assert (1 <= len (y :: t)) by (apply len_pos; discriminate).
  destruct He as [He|He]; [|lia].
  unfold at_ in He.
  assert (0 <= e < a) as Hea by (destruct (s + (1 + len (y :: t)) <? a) eqn:E; lia).
  split; [destruct (s + (1 + len (y :: t)) <? a) eqn:E; lia|].
  split.
  { destruct (s + (1 + len (y :: t)) <? a) eqn:E; destruct (s + 1 <? a) eqn:E2; lia. }
  split; [lia|]. right. split; [discriminate|]. split; [destruct (s + 1 <? a) eqn:E; lia|].
  split; [lia|]. split.
  - left. unfold at_. destruct (s + (1 + len (y :: t)) <? a) eqn:E; destruct (s + 1 <? a) eqn:E2;
    match goal with |- _ = (if ?c then _ else _) => destruct c eqn:E3 end; lia.
  - intros i z Hi Hz. 
    specialize (Hc (i + 1) z ltac:(lia)). 
    replace (Z.to_nat (i + 1)) with (S (Z.to_nat i)) in Hc by lia. specialize (Hc Hz).
    rewrite <- Hc. f_equal. unfold at_.
    pose proof (nth_error_bound _ _ _ Hi Hz).
    destruct (s + 1 <? a) eqn:E2; destruct (s + (i + 1) <? a) eqn:E3;
    match goal with |- (if ?c then _ else _) = _ => destruct c eqn:E4 end; lia.
Qed.

Lemma get_spec L flat d r q x t : rep L flat r q -> L < 2^30 -> items q = x :: t ->
  exists s e, get d r = Ok (x, set_se r s e) /\ rep L flat (set_se r s e) (with_items q t).
Proof.
  intros R HL E. pose proof (rp_lay _ _ _ _ R) as Lay. rewrite E in Lay.
  pose proof (rp_alloc _ _ _ _ R) as HA.
  destruct (layout_front _ _ _ _ _ _ Lay) as (C & Hs & T).
  unfold get. replace (start r >=? 0) with true by lia. rewrite C. cbn [bind].
  rewrite arith_ok by lia. cbn [bind]. rewrite crem_wrap by lia.
  destruct R as [R1 R2 R3 R4 R5 R6 R7 R8 R9].
  destruct t as [|y t].
  - exists (-1), (-1). split.
    + destruct T as [T|(T1 & T2)].
      * rewrite T, Z.eqb_refl. reflexivity.
      * destruct (start r + 1 =? end_ r); [reflexivity|]. cbn [bind].
        replace (start r + 1 <? alloc r) with false by lia.
        replace (start r + 1 - alloc r =? end_ r) with true by lia. reflexivity.
    + constructor; simp; auto. left. auto.
  - destruct T as (T1 & T2 & T3 & T4).
    exists (if start r + 1 <? alloc r then start r + 1 else 0), (end_ r). split.
    + replace (start r + 1 =? end_ r) with false by lia. cbn [bind].
      destruct (start r + 1 <? alloc r) eqn:Q.
      * replace (start r + 1 =? end_ r) with false by lia. reflexivity.
      * replace (start r + 1 - alloc r) with 0 by lia.
        replace (0 =? end_ r) with false by lia. reflexivity.
    + constructor; simp; auto.
Qed.

Lemma get_empty L flat d r q : rep L flat r q -> items q = [] -> get d r = Ok (0, r).
Proof.
  intros R E. destruct (rp_lay _ _ _ _ R) as [(_ & Hs & _)|(Hl & _)]; [|congruence].
  unfold get. rewrite Hs. reflexivity.
Qed.

(* ---------------- removing from the back ---------------- *)

Lemma layout_back a s e d t x : layout a s e d (t ++ [x]) ->
  let e' := if e + a - 1 <? a then e + a - 1 else e - 1 in
  0 <= e <= a /\ 0 <= s < a /\ cell d e' = Ok x /\ 0 <= e' < a /\
  (t = [] -> e' = s) /\ (t <> [] -> e' <> s /\ layout a s e' d t).
Proof.
  intros [(H & _)|(Hl & Hs & Hn & He & Hc)]; [destruct t; discriminate|].
  intros e'. rewrite len_app in *. change (len [x]) with 1 in *. pose proof (len_nonneg t).
  assert (e' = at_ a s (len t)) as Ee.
  { unfold e', at_ in *. destruct He as [He|He].
    - destruct (e + a - 1 <? a) eqn:E1; destruct (s + (len t + 1) <? a) eqn:E2; destruct (s + len t <? a) eqn:E3; lia.
    - destruct (e + a - 1 <? a) eqn:E1; destruct (s + len t <? a) eqn:E3; lia. }
  assert (0 <= e <= a).
  { destruct He as [He|He]; [|lia]. unfold at_ in He. destruct (s + (len t + 1) <? a) eqn:E2; lia. }
  split; [lia|]. split; [lia|]. split.
  { rewrite Ee. apply Hc; [lia|]. rewrite nth_error_app2 by (unfold len; lia).
    replace (Z.to_nat (len t) - length t)%nat with O by (unfold len; lia). reflexivity. }
  split; [rewrite Ee; unfold at_; destruct (s + len t <? a) eqn:E3; lia|]. split.
  { intros ->. rewrite Ee. rewrite len_nil. unfold at_. replace (s + 0 <? a) with true by lia. lia. }
  intros Ht. apply len_pos in Ht as Ht'. split.
  { rewrite Ee. unfold at_. destruct (s + len t <? a) eqn:E3; lia. }
  right. split; auto. split; auto. split; [lia|]. split; [left; exact Ee|].
  intros i y Hi Hy. apply Hc; auto. rewrite nth_error_app1; auto. apply nth_error_Some. congruence.
Qed.

Lemma get_last_spec L flat d r q t x : rep L flat r q -> L < 2^30 -> items q = t ++ [x] ->
  exists s e, get_last d r = Ok (x, set_se r s e) /\ rep L flat (set_se r s e) (with_items q t).
Proof.
  intros R HL E. pose proof (rp_lay _ _ _ _ R) as Lay. rewrite E in Lay.
  pose proof (rp_alloc _ _ _ _ R) as HA.
  destruct (layout_back _ _ _ _ _ _ Lay) as (He & Hs & C & He' & T1 & T2).
  unfold get_last. replace (start r >=? 0) with true by lia.
  rewrite arith_ok by lia. cbn [bind]. rewrite arith_ok by lia. cbn [bind].
  rewrite crem_wrap by lia. cbn [bind].
  replace (end_ r + alloc r - 1 - alloc r) with (end_ r - 1) by lia. rewrite C. cbn [bind].
  destruct R as [R1 R2 R3 R4 R5 R6 R7 R8 R9].
  destruct t as [|y t].
  - rewrite T1 by auto. rewrite Z.eqb_refl. exists (-1), (-1). split; [reflexivity|].
    constructor; simp; auto. left. auto.
  - destruct T2 as (T2 & T3); [discriminate|].
    eexists _, _. split.
    + match goal with |- context [?a =? ?b] => replace (a =? b) with false by lia end. reflexivity.
    + constructor; simp; auto.
Qed.

Lemma get_last_empty L flat d r q : rep L flat r q -> items q = [] -> get_last d r = Ok (0, r).
Proof.
  intros R E. destruct (rp_lay _ _ _ _ R) as [(_ & Hs & _)|(Hl & _)]; [|congruence].
  unfold get_last. rewrite Hs. reflexivity.
Qed.

(* ---------------- clear, drop, drop_last ---------------- *)

Lemma rep_log L flat r q f x : rep L flat r q -> rep L flat (log_free r f x) q.
Proof. intros [R1 R2 R3 R4 R5 R6 R7 R8 R9]. constructor; simp; auto. Qed.

Lemma freed_se r s e : freed (set_se r s e) = freed r. Proof. reflexivity. Qed.

Lemma clear_loop_spec L flat d f : forall t x r q, rep L flat r q -> L < 2^30 -> items q = x :: t ->
  exists r', clear_loop d (S (length t)) f [] r = Ok r' /\ rep L flat r' (with_items q []) /\
    freed r' = freed r ++ map (pair f) (x :: t).
Proof.
  induction t as [|y t IH]; intros x r q R HL E.
  - destruct (get_spec L flat d r q x [] R HL E) as (s & e & G & R').
    cbn [clear_loop length]. rewrite G. cbn [bind call_free].
    eexists. split; [reflexivity|]. split; [apply rep_log; exact R'|]. reflexivity.
  - destruct (get_spec L flat d r q x (y :: t) R HL E) as (s & e & G & R').
    destruct (IH y (log_free (set_se r s e) f x) (with_items q (y :: t))) as (r' & C & R'' & F); auto.
    { apply rep_log. exact R'. }
    exists r'. split; [|split].
    + rewrite <- C. cbn [length]. cbn [clear_loop]. rewrite G. cbn [bind call_free].
      unfold touch. cbn [log_free set_se gone]. rewrite (rp_gone _ _ _ _ R). cbn [bind].
      rewrite (rep_size L flat d _ (with_items q (y :: t))) by (try apply rep_log; auto).
      cbn [bind with_items items].
      assert (1 <= len (y :: t)) by (apply len_pos; discriminate).
      replace (len (y :: t) >? 0) with true by lia. reflexivity.
    + exact R''.
    + rewrite F. simp. rewrite <- app_assoc. reflexivity.
Qed.

Lemma rep_empty_se L flat r q : rep L flat r q -> rep L flat (set_se r (-1) (-1)) (with_items q []).
Proof. intros [R1 R2 R3 R4 R5 R6 R7 R8 R9]. constructor; simp; auto. left. auto. Qed.

Lemma rep_same L flat r q l : rep L flat r q -> l = items q -> rep L flat r (with_items q l).
Proof. intros [R1 R2 R3 R4 R5 R6 R7 R8 R9] ->. constructor; simp; auto. Qed.

(* log entries for removing l *)
Definition rem_log (q : deque) (l : list Z) : list (Z * Z) :=
  match fn q with Some f => map (pair f) l | None => [] end.

Lemma clear_spec L flat d r q : rep L flat r q -> L < 2^30 ->
  exists r', clear d [] r = Ok r' /\ rep L flat r' (with_items q []) /\
    freed r' = freed r ++ rem_log q (items q).
Proof.
  intros R HL. unfold clear. rewrite (rep_size L flat d r q R HL). cbn [bind].
  rewrite (rp_fn _ _ _ _ R). unfold rem_log.
  destruct (items q) as [|x t] eqn:E.
  - exists r. split; [reflexivity|]. split; [apply rep_same; auto|].
    destruct (fn q); cbn [map]; rewrite app_nil_r; reflexivity.
  - assert (1 <= len (x :: t)) by (apply len_pos; discriminate).
    replace (len (x :: t) >? 0) with true by lia. destruct (fn q) as [f|] eqn:F.
    + replace (Z.to_nat (len (x :: t))) with (S (length t)) by (unfold len; cbn [length]; lia).
      apply clear_loop_spec; auto.
    + eexists. split; [reflexivity|]. split; [apply rep_empty_se; auto|]. simp. rewrite app_nil_r. reflexivity.
Qed.

Lemma at_1 a s : 0 <= s < a -> at_ a s 1 = if s + 1 <? a then s + 1 else 0.
Proof. intros. unfold at_. destruct (s + 1 <? a) eqn:E; lia. Qed.
Lemma at_at a s i k : 0 <= s < a -> 0 <= i -> 0 <= k -> i + k <= a -> i < a ->
  at_ a (at_ a s i) k = at_ a s (i + k).
Proof.
  intros. unfold at_.
  destruct (s + i <? a) eqn:E1.
  - destruct (s + i + k <? a) eqn:E2; destruct (s + (i + k) <? a) eqn:E3; lia.
  - destruct (s + i - a + k <? a) eqn:E2; destruct (s + (i + k) <? a) eqn:E3; lia.
Qed.

Lemma layout_shift a s e d : forall pre post, layout a s e d (pre ++ post) -> post <> [] ->
  0 <= s < a /\ layout a (at_ a s (len pre)) e d post.
Proof.
  intros pre post [(H & _)|(Hl & Hs & Hn & He & Hc)] Hp.
  { destruct pre; [cbn in H; congruence|discriminate]. }
  split; auto. apply len_pos in Hp as Hp'. pose proof (len_nonneg pre). rewrite len_app in *.
  right. split; auto. split; [unfold at_; destruct (s + len pre <? a) eqn:E; lia|]. split; [lia|]. split.
  - destruct He as [He|He].
    + left. rewrite at_at by lia. exact He.
    + right. assert (len pre = 0) as -> by lia. unfold at_. replace (s + 0 <? a) with true by lia. lia.
  - intros i x Hi Hx. pose proof (nth_error_bound _ _ _ Hi Hx).
    rewrite at_at by lia. apply Hc; [lia|].
    rewrite nth_error_app2 by (unfold len; lia).
    replace (Z.to_nat (len pre + i) - length pre)%nat with (Z.to_nat i) by (unfold len; lia). exact Hx.
Qed.

Lemma layout_cut a s e d : forall pre post, layout a s e d (pre ++ post) -> pre <> [] -> post <> [] ->
  let e' := if e + a - len post <? a then e + a - len post else e - len post in
  0 <= e <= a /\ layout a s e' d pre /\ e' = at_ a s (len pre).
Proof.
  intros pre post [(H & _)|(Hl & Hs & Hn & He & Hc)] Hp Hq e'; [destruct pre; cbn in H; congruence|].
  apply len_pos in Hp as Hp'. apply len_pos in Hq as Hq'. rewrite len_app in *.
  assert (0 <= e <= a).
  { destruct He as [He|He]; [|lia]. unfold at_ in He. destruct (s + (len pre + len post) <? a) eqn:E2; lia. }
  split; auto.
  assert (e' = at_ a s (len pre)) as Ee.
  { destruct He as [He|He]; [|lia]. unfold e', at_ in *.
    destruct (e + a - len post <? a) eqn:E1; destruct (s + (len pre + len post) <? a) eqn:E2;
    destruct (s + len pre <? a) eqn:E3; lia. }
  split; auto. right. split; auto. split; auto. split; [lia|]. split; [left; exact Ee|].
  intros i x Hi Hx. apply Hc; auto. rewrite nth_error_app1; auto. apply nth_error_Some. congruence.
Qed.

Lemma layout_alt a s e d l : layout a s e d l -> l <> [] -> layout a s (at_ a s (len l)) d l.
Proof. intros [(H & _)|(Hl & Hs & Hn & He & Hc)] H'; [congruence|]. right. auto 6. Qed.

Lemma drop_loop_spec L flat d f : forall pre r q post, rep L flat r q -> L < 2^30 ->
  fn q = Some f -> items q = pre ++ post -> post <> [] ->
  exists r', drop_loop d (length pre) [] r = Ok r' /\ rep L flat r' (with_items q post) /\
    freed r' = freed r ++ map (pair f) pre.
Proof.
  induction pre as [|x pre IH]; intros r q post R HL F E Hp.
  - exists r. split; [reflexivity|]. split; [apply rep_same; auto|]. rewrite app_nil_r. reflexivity.
  - pose proof (rp_lay _ _ _ _ R) as Lay. rewrite E in Lay. cbn [app] in Lay.
    pose proof (rp_alloc _ _ _ _ R) as HA.
    destruct (layout_front _ _ _ _ _ _ Lay) as (C & Hs & T).
    assert (pre ++ post <> []) as Hne by (destruct pre; [exact Hp|discriminate]).
    destruct (pre ++ post) as [|y t] eqn:Ep; [congruence|]. clear Hne.
    destruct T as (T1 & T2 & T3 & T4).
    set (s' := if start r + 1 <? alloc r then start r + 1 else 0) in *.
    destruct (IH (set_se (log_free r f x) s' (end_ r)) (with_items q (y :: t)) post) as (r' & D & R' & F'); auto.
    { destruct R as [R1 R2 R3 R4 R5 R6 R7 R8 R9]. constructor; simp; auto. }
    exists r'. split; [|split].
    + cbn [length drop_loop]. unfold touch. rewrite (rp_gone _ _ _ _ R). cbn [bind].
      rewrite C, (rp_fn _ _ _ _ R), F. cbn [bind call_free]. simp. rewrite (rp_gone _ _ _ _ R). cbn [bind].
      rewrite arith_ok by lia. cbn [bind]. rewrite crem_wrap by lia. cbn [bind].
      rewrite <- D. f_equal. f_equal. unfold s'. destruct (start r + 1 <? alloc r) eqn:Q; lia.
    + exact R'.
    + rewrite F'. simp. rewrite <- app_assoc. reflexivity.
Qed.

Lemma split_at (l : list Z) k : 0 <= k <= len l -> exists pre post, l = pre ++ post /\ len pre = k /\
  firstn (Z.to_nat k) l = pre /\ skipn (Z.to_nat k) l = post.
Proof.
  intros H. exists (firstn (Z.to_nat k) l), (skipn (Z.to_nat k) l).
  rewrite firstn_skipn. split; auto. split; auto. unfold len in *. rewrite firstn_length. lia.
Qed.

Lemma drop_spec L flat d r q n : rep L flat r q -> L < 2^30 -> in_s32 n ->
  let k := dropping n (items q) in
  exists r', drop d [] r n = Ok (k, r') /\ rep L flat r' (with_items q (skipn (Z.to_nat k) (items q))) /\
    freed r' = freed r ++ rem_log q (firstn (Z.to_nat k) (items q)).
Proof.
  intros R HL Hn k. unfold drop. pose proof (len_nonneg (items q)).
  assert (k = 0 -> rep L flat r (with_items q (skipn (Z.to_nat k) (items q))) /\
     freed r = freed r ++ rem_log q (firstn (Z.to_nat k) (items q))) as Triv.
  { intros ->. split; [apply rep_same; auto|]. unfold rem_log. destruct (fn q); cbn; rewrite app_nil_r; reflexivity. }
  destruct (n >? 0) eqn:E1.
  2:{ exists r. assert (k = 0) as K by (unfold k, dropping; lia). rewrite K at 1. split; auto. }
  rewrite (rep_size L flat d r q R HL). cbn [bind].
  destruct (len (items q) >? 0) eqn:E2.
  2:{ exists r. assert (k = 0) as K by (unfold k, dropping; lia). rewrite K at 1. split; auto. }
  destruct (n >=? len (items q)) eqn:E3.
  - assert (k = len (items q)) as K by (unfold k, dropping; lia). rewrite K.
    destruct (clear_spec L flat d r q R HL) as (r' & C & R' & F). rewrite C. cbn [bind].
    exists r'. split; auto. unfold len. rewrite Nat2Z.id, skipn_all, firstn_all. auto.
  - assert (k = n) as K by (unfold k, dropping; lia). rewrite K.
    destruct (split_at (items q) n ltac:(lia)) as (pre & post & E & Lp & -> & ->).
    assert (post <> []) as Hp.
    { intros ->. rewrite app_nil_r in E. rewrite E in E3. lia. }
    rewrite (rp_fn _ _ _ _ R). unfold rem_log. destruct (fn q) as [f|] eqn:F.
    + destruct (drop_loop_spec L flat d f pre r q post R HL F E Hp) as (r' & D & R' & F').
      replace (Z.to_nat n) with (length pre) by (unfold len in Lp; lia).
      rewrite D. cbn [bind]. exists r'. auto.
    + pose proof (rp_lay _ _ _ _ R) as Lay. rewrite E in Lay.
      destruct (layout_shift _ _ _ _ _ _ Lay Hp) as (Hs & Lay').
      pose proof (rp_alloc _ _ _ _ R) as HA.
      destruct (rp_lay _ _ _ _ R) as [(Ec & _)|(_ & _ & Hla & _)]; [rewrite Ec in E2; cbn in E2; lia|].
      rewrite arith_ok by lia. cbn [bind]. rewrite crem_wrap by lia. cbn [bind].
      eexists. split; [reflexivity|]. split; [|simp; rewrite app_nil_r; reflexivity].
      destruct R as [R1 R2 R3 R4 R5 R6 R7 R8 R9]. constructor; simp; auto.
      unfold at_ in Lay'. rewrite Lp in Lay'. exact Lay'.
Qed.

Lemma drop_last_loop_spec L flat d f : forall post r q pre, rep L flat r q -> L < 2^30 ->
  fn q = Some f -> items q = pre ++ rev post -> pre <> [] ->
  exists r', drop_last_loop d (length post) [] r = Ok r' /\ rep L flat r' (with_items q pre) /\
    freed r' = freed r ++ map (pair f) post.
Proof.
  induction post as [|x post IH]; intros r q pre R HL F E Hp.
  - exists r. split; [reflexivity|]. split; [apply rep_same; auto|].
    { cbn in E. rewrite app_nil_r in E. auto. } rewrite app_nil_r. reflexivity.
  - pose proof (rp_lay _ _ _ _ R) as Lay. cbn [rev] in E. rewrite E in Lay. rewrite app_assoc in Lay.
    pose proof (rp_alloc _ _ _ _ R) as HA.
    destruct (layout_back _ _ _ _ _ _ Lay) as (He & Hs & C & He' & _ & T).
    destruct T as (_ & T). { destruct pre; [congruence|discriminate]. }
    set (e' := if end_ r + alloc r - 1 <? alloc r then end_ r + alloc r - 1 else end_ r - 1) in *.
    destruct (IH (log_free (set_se r (start r) e') f x) (with_items q (pre ++ rev post)) pre) as (r' & D & R' & F'); auto.
    { destruct R as [R1 R2 R3 R4 R5 R6 R7 R8 R9]. constructor; simp; auto. }
    exists r'. split; [|split].
    + cbn [length drop_last_loop]. unfold touch. rewrite (rp_gone _ _ _ _ R). cbn [bind].
      rewrite arith_ok by lia. cbn [bind]. rewrite arith_ok by lia. cbn [bind].
      rewrite crem_wrap by lia. cbn [bind].
      replace (end_ r + alloc r - 1 - alloc r) with (end_ r - 1) by lia. fold e'.
      rewrite C. simp. rewrite (rp_fn _ _ _ _ R), F. cbn [bind call_free]. exact D.
    + exact R'.
    + rewrite F'. simp. rewrite <- app_assoc. reflexivity.
Qed.

Lemma drop_last_spec L flat d r q n : rep L flat r q -> L < 2^30 -> in_s32 n ->
  exists keep gone r', items q = keep ++ gone /\ len gone = dropping n (items q) /\
    drop_last d [] r n = Ok (len gone, r') /\ rep L flat r' (with_items q keep) /\
    freed r' = freed r ++ rem_log q (if len keep =? 0 then gone else rev gone).
Proof.
  intros R HL Hn. unfold drop_last. pose proof (len_nonneg (items q)).
  assert (dropping n (items q) = 0 -> exists keep gone, items q = keep ++ gone /\
     len gone = dropping n (items q) /\ len gone = 0 /\ rep L flat r (with_items q keep) /\
     freed r = freed r ++ rem_log q (if len keep =? 0 then gone else rev gone)) as Triv.
  { intros K. exists (items q), []. rewrite app_nil_r. split; auto. split; [rewrite K; reflexivity|].
    split; auto. split; [apply rep_same; auto|]. cbn [rev].
    destruct (len (items q) =? 0); unfold rem_log; destruct (fn q); cbn; rewrite app_nil_r; reflexivity. }
  destruct (n >? 0) eqn:E1.
  2:{ destruct Triv as (k & g & T1 & T2 & T3 & T4 & T5); [unfold dropping; lia|].
      exists k, g, r. split; auto. split; auto. split; [rewrite T3; reflexivity|]. auto. }
  rewrite (rep_size L flat d r q R HL). cbn [bind].
  destruct (len (items q) >? 0) eqn:E2.
  2:{ destruct Triv as (k & g & T1 & T2 & T3 & T4 & T5); [unfold dropping; lia|].
      exists k, g, r. split; auto. split; auto. split; [rewrite T3; reflexivity|]. auto. }
  destruct (n >=? len (items q)) eqn:E3.
  - destruct (clear_spec L flat d r q R HL) as (r' & C & R' & F). rewrite C. cbn [bind].
    exists [], (items q), r'. split; auto. split; [unfold dropping; lia|]. split; auto.
  - destruct (split_at (items q) (len (items q) - n) ltac:(lia)) as (pre & post & E & Lp & _ & _).
    assert (pre <> []) as Hp.
    { intros ->. change (len []) with 0 in Lp. lia. }
    assert (len post = n) as Lpost by (rewrite E, len_app in Lp; lia).
    exists pre, post. rewrite (rp_fn _ _ _ _ R). unfold rem_log.
    apply len_pos in Hp as Hp'. replace (len pre =? 0) with false by lia.
    destruct (fn q) as [f|] eqn:F.
    + destruct (drop_last_loop_spec L flat d f (rev post) r q pre R HL F) as (r' & D & R' & F'); auto.
      { rewrite rev_involutive. exact E. }
      rewrite rev_length in D.
      replace (Z.to_nat n) with (length post) by (unfold len in Lpost; lia).
      rewrite D. cbn [bind]. exists r'. split; auto. split; [unfold dropping; lia|]. split; [congruence|]. auto.
    + pose proof (rp_lay _ _ _ _ R) as Lay. rewrite E in Lay.
      assert (post <> []) as Hq by (intros ->; change (len []) with 0 in Lpost; lia).
      destruct (layout_cut _ _ _ _ _ _ Lay Hp Hq) as (He & Lay' & _).
      pose proof (rp_alloc _ _ _ _ R) as HA.
      destruct (rp_lay _ _ _ _ R) as [(Ec & _)|(_ & _ & Hla & _)]; [rewrite Ec in E2; cbn in E2; lia|].
      rewrite arith_ok by lia. cbn [bind]. rewrite arith_ok by lia. cbn [bind].
      rewrite crem_wrap by lia. cbn [bind].
      eexists. split; auto. split; [unfold dropping; lia|]. split; [rewrite Lpost; reflexivity|].
      split; [|simp; rewrite app_nil_r; reflexivity].
      destruct R as [R1 R2 R3 R4 R5 R6 R7 R8 R9]. constructor; simp; auto.
      rewrite Lpost in Lay'. replace (end_ r + alloc r - n - alloc r) with (end_ r - n) by lia. exact Lay'.
Qed.

(* ---------------- moving the contents ---------------- *)

Lemma layout_linear a d l : len l <= a -> l <> [] ->
  (forall i x, 0 <= i -> nth_error l (Z.to_nat i) = Some x -> cell d i = Ok x) ->
  layout a 0 (at_ a 0 (len l)) d l.
Proof.
  intros Ha Hl Hc. right. apply len_pos in Hl as Hl'. split; auto. split; [lia|]. split; auto. split; auto.
  intros i x Hi Hx. pose proof (nth_error_bound _ _ _ Hi Hx).
  unfold at_. replace (0 + i <? a) with true by lia. apply Hc; auto.
Qed.

Lemma unwrap a s e d l dst : layout a s e d l -> l <> [] -> len d <= a -> len l <= len dst ->
  (s < e -> e - s = len l /\ exists buf, memcpy dst 0 d s (len l) = Ok buf /\ len buf = len dst /\
     forall i x, 0 <= i -> nth_error l (Z.to_nat i) = Some x -> cell buf i = Ok x) /\
  (e <= s -> 0 <= e /\ a - s + e = len l /\ exists b1 buf, memcpy dst 0 d s (a - s) = Ok b1 /\
     memcpy b1 (a - s) d 0 e = Ok buf /\ len buf = len dst /\
     forall i x, 0 <= i -> nth_error l (Z.to_nat i) = Some x -> cell buf i = Ok x).
Proof.
  intros Lay Hl Hd Hdst. pose proof Lay as Lay0.
  destruct Lay as [(H & _)|(_ & Hs & Hn & He & Hc)]; [congruence|].
  apply len_pos in Hl as Hl'. split; intros Hse.
  - assert (e - s = len l /\ s + len l <= a) as (K & K2).
    { unfold at_ in He. destruct (s + len l <? a) eqn:E; lia. }
    split; auto.
    pose proof (layout_cells _ _ _ _ _ (len l - 1) Lay0 ltac:(lia)) as Last. unfold at_ in Last.
    replace (s + (len l - 1) <? a) with true in Last by lia.
    destruct (memcpy_ok dst 0 d s (len l)) as (buf & M & LB & C1 & C2); try lia.
    exists buf. split; auto. split; auto. intros i x Hi Hx.
    pose proof (nth_error_bound _ _ _ Hi Hx).
    rewrite C1 by lia. specialize (Hc i x Hi Hx). unfold at_ in Hc.
    replace (s + i <? a) with true in Hc by lia. rewrite <- Hc. f_equal. lia.
  - assert (0 <= e /\ a - s + e = len l) as (K1 & K2).
    { unfold at_ in He. destruct (s + len l <? a) eqn:E; lia. }
    split; auto. split; auto.
    pose proof (layout_cells _ _ _ _ _ (a - s - 1) Lay0 ltac:(lia)) as Last. unfold at_ in Last.
    replace (s + (a - s - 1) <? a) with true in Last by lia.
    destruct (memcpy_ok dst 0 d s (a - s)) as (b1 & M & LB & C1 & C2); try lia.
    destruct (memcpy_ok b1 (a - s) d 0 e) as (buf & M' & LB' & C1' & C2'); try lia.
    exists b1, buf. split; auto. split; auto. split; [lia|]. intros i x Hi Hx.
    pose proof (nth_error_bound _ _ _ Hi Hx).
    specialize (Hc i x Hi Hx). unfold at_ in Hc. destruct (Z.lt_ge_cases i (a - s)).
    + rewrite C2' by lia. rewrite C1 by lia.
      replace (s + i <? a) with true in Hc by lia. rewrite <- Hc. f_equal. lia.
    + rewrite C1' by lia. replace (s + i <? a) with false in Hc by lia. rewrite <- Hc. f_equal. lia.
Qed.

Lemma rep_buf L flat flat' r q a s e d : rep L flat r q -> 0 <= a <= L -> len d <= a ->
  (flat' = false -> len d = a) -> layout a s e d (items q) -> rep L flat' (set_buf r a s e d) q.
Proof. intros [R1 R2 R3 R4 R5 R6 R7 R8 R9]. constructor; simp; auto. Qed.

Lemma rep_flat_true L flat r q : rep L flat r q -> rep L true r q.
Proof. intros [R1 R2 R3 R4 R5 R6 R7 R8 R9]. constructor; simp; auto. discriminate. Qed.

Lemma layout_le a s e d l : layout a s e d l -> 0 <= a -> len l <= a.
Proof. intros [(-> & _)|(_ & _ & H & _)] ?; auto. Qed.

Lemma reserve_spec L flat d r q n : rep L flat r q -> L < 2^30 ->
  (reserve L d r n = Fail AllocAbort /\ L < Z.max n (2 * alloc r) /\ alloc r < n) \/
  exists r', rep L flat r' q /\ freed r' = freed r /\
   ((reserve L d r n = Ok (false, r') /\ r' = r /\ alloc r < n /\ 0 <= bound q <= alloc r) \/
    (reserve L d r n = Ok (true, r') /\
     ((r' = r /\ n <= alloc r) \/
      (alloc r < alloc r' <= Z.max n (2 * alloc r) /\ alloc r < n /\ (0 <= bound q -> alloc r' <= bound q))))).
Proof.
  intros R HL. pose proof (rp_alloc _ _ _ _ R) as HA. pose proof (rp_max _ _ _ _ R) as HM.
  pose proof (rp_maxr _ _ _ _ R) as HMr. pose proof (rp_lay _ _ _ _ R) as Lay.
  pose proof (rp_len _ _ _ _ R) as HD. pose proof (layout_le _ _ _ _ _ Lay ltac:(lia)) as HN.
  unfold reserve. destruct (n <=? alloc r) eqn:E1.
  { right. exists r. split; auto. split; auto. right. split; auto. left. split; auto. lia. }
  destruct ((maxsiz r >=? 0) && (alloc r >=? maxsiz r)) eqn:E2.
  { right. exists r. split; auto. split; auto. left. split; auto. split; auto. lia. }
  rewrite arith_ok by lia. cbn [bind].
  set (m := if (maxsiz r >? 0) && (Z.max n (alloc r * 2) >? maxsiz r) then maxsiz r else Z.max n (alloc r * 2)).
  cbv zeta. fold m.
  assert (alloc r < m <= Z.max n (2 * alloc r)) as Hm.
  { unfold m. destruct ((maxsiz r >? 0) && (Z.max n (alloc r * 2) >? maxsiz r)) eqn:E3; lia. }
  assert (0 <= bound q -> m <= bound q) as Hmb.
  { unfold m. destruct ((maxsiz r >? 0) && (Z.max n (alloc r * 2) >? maxsiz r)) eqn:E3; lia. }
  destruct (g_new_cases L m) as [(HmL & ->)|(HmL & ->)].
  2:{ left. cbn [bind]. split; auto. lia. }
  cbn [bind]. right.
  assert (len (repeat (@None Z) (Z.to_nat m)) = m) as Lrep by (rewrite len_repeat; lia).
  destruct (items q) as [|x0 t0] eqn:EI.
  - destruct Lay as [(_ & Hs & He)|(Hl & _)]; [|congruence]. rewrite Hs, He.
    replace (-1 <? -1) with false by lia. replace (-1 >=? 0) with false by lia.
    eexists. split; [|split; [|right; split; [reflexivity|right; simp; lia]]]; [|reflexivity].
    apply (rep_buf L flat); auto; try lia. left. auto.
  - rewrite <- EI in *. assert (items q <> []) as Hne by congruence. clear EI x0 t0.
    destruct (unwrap _ _ _ _ _ (repeat None (Z.to_nat m)) Lay Hne HD ltac:(lia)) as (U1 & U2).
    assert (0 <= start r < alloc r) as Hs by (destruct Lay as [(? & _)|(_ & ? & _)]; [congruence|auto]).
    assert (at_ m 0 (len (items q)) = len (items q)) as Hat.
    { unfold at_. replace (0 + len (items q) <? m) with true by lia. lia. }
    pose proof (len_nonneg (items q)).
    destruct (start r <? end_ r) eqn:E3.
    + destruct U1 as (K & buf & M & LB & C); [lia|]. rewrite K.
      rewrite arith_ok by lia. cbn [bind]. rewrite M. cbn [bind].
      eexists. split; [|split; [|right; split; [reflexivity|right; simp; lia]]]; [|reflexivity].
      apply (rep_buf L flat); auto; try lia.
      pose proof (layout_linear m buf (items q) ltac:(lia) Hne C) as LL. rewrite Hat in LL. exact LL.
    + destruct U2 as (He & K & b1 & buf & M1 & M2 & LB & C); [lia|].
      replace (start r >=? 0) with true by lia.
      rewrite arith_ok by lia. cbn [bind]. rewrite M1. cbn [bind]. rewrite M2. cbn [bind].
      rewrite arith_ok by lia. cbn [bind].
      eexists. split; [|split; [|right; split; [reflexivity|right; simp; lia]]]; [|reflexivity].
      apply (rep_buf L flat); auto; try lia.
      pose proof (layout_linear m buf (items q) ltac:(lia) Hne C) as LL. rewrite Hat in LL.
      replace (end_ r + (alloc r - start r)) with (len (items q)) by lia. exact LL.
Qed.

Lemma compact_spec L flat d r q : rep L flat r q -> L < 2^30 ->
  exists r', compact L d r = Ok r' /\ rep L false r' q /\ freed r' = freed r /\ alloc r' <= alloc r.
Proof.
  intros R HL. pose proof (rp_alloc _ _ _ _ R) as HA. pose proof (rp_lay _ _ _ _ R) as Lay.
  pose proof (rp_len _ _ _ _ R) as HD. pose proof (layout_le _ _ _ _ _ Lay ltac:(lia)) as HN.
  unfold compact. rewrite (rep_size L flat d r q R HL). cbn [bind].
  destruct (items q) as [|x0 t0] eqn:EI.
  - change (len []) with 0. replace (0 >? 0) with false by lia.
    destruct (alloc r >? 0) eqn:E1.
    + eexists. split; [reflexivity|]. split; [|split; [reflexivity|simp; lia]].
      apply (rep_buf L flat); auto; try (cbn; lia).
      rewrite EI. destruct Lay as [(_ & Hs & He)|(Hl & _)]; [|congruence]. left. auto.
    + exists r. split; auto. split; [|split; [auto|lia]].
      destruct R as [R1 R2 R3 R4 R5 R6 R7 R8 R9]. constructor; auto.
      intros _. pose proof (len_nonneg (data r)). lia.
  - rewrite <- EI in *. assert (items q <> []) as Hne by congruence. clear EI x0 t0.
    apply len_pos in Hne as Hn'. replace (len (items q) >? 0) with true by lia.
    destruct (alloc r >? len (items q)) eqn:E1.
    + rewrite g_new_ok by lia. cbn [bind].
      assert (len (repeat (@None Z) (Z.to_nat (len (items q)))) = len (items q)) as Lrep by (rewrite len_repeat; lia).
      destruct (unwrap _ _ _ _ _ (repeat None (Z.to_nat (len (items q)))) Lay Hne HD ltac:(lia)) as (U1 & U2).
      assert (0 <= start r < alloc r) as Hs by (destruct Lay as [(? & _)|(_ & ? & _)]; [congruence|auto]).
      assert (at_ (len (items q)) 0 (len (items q)) = 0) as Hat.
      { unfold at_. replace (0 + len (items q) <? len (items q)) with false by lia. lia. }
      destruct (start r <? end_ r) eqn:E3.
      * destruct U1 as (K & buf & M & LB & C); [lia|]. rewrite M. cbn [bind].
        eexists. split; [reflexivity|]. split; [|split; [reflexivity|simp; lia]].
        apply (rep_buf L flat); auto; try lia.
        pose proof (layout_linear (len (items q)) buf (items q) ltac:(lia) Hne C) as LL. rewrite Hat in LL. exact LL.
      * destruct U2 as (He & K & b1 & buf & M1 & M2 & LB & C); [lia|].
        rewrite arith_ok by lia. cbn [bind]. rewrite M1. cbn [bind]. rewrite M2. cbn [bind].
        eexists. split; [reflexivity|]. split; [|split; [reflexivity|simp; lia]].
        apply (rep_buf L flat); auto; try lia.
        pose proof (layout_linear (len (items q)) buf (items q) ltac:(lia) Hne C) as LL. rewrite Hat in LL. exact LL.
    + exists r. split; auto. split; [|split; [auto|lia]].
      pose proof (layout_cells _ _ _ _ _ (alloc r - 1 - start r) Lay) as C1.
      destruct R as [R1 R2 R3 R4 R5 R6 R7 R8 R9]. constructor; auto.
      intros _. assert (0 <= start r < alloc r) as Hs by (destruct Lay as [(? & _)|(_ & ? & _)]; [congruence|auto]).
      specialize (C1 ltac:(lia)). unfold at_ in C1.
      replace (start r + (alloc r - 1 - start r) <? alloc r) with true in C1 by lia. lia.
Qed.

Lemma flatten_spec L flat d r q : rep L flat r q -> L < 2^30 ->
  exists r' p, flatten L d r = Ok (p, len (items q), r') /\ rep L true r' q /\ freed r' = freed r /\
    alloc r' = alloc r /\ (p = None <-> items q = []) /\
    (forall o, p = Some o -> slice (data r') o (o + len (items q)) = map Some (items q)).
Proof.
  intros R HL. pose proof (rp_alloc _ _ _ _ R) as HA. pose proof (rp_lay _ _ _ _ R) as Lay.
  pose proof (rp_len _ _ _ _ R) as HD. pose proof (layout_le _ _ _ _ _ Lay ltac:(lia)) as HN.
  unfold flatten. rewrite (rep_size L flat d r q R HL). cbn [bind].
  destruct (items q) as [|x0 t0] eqn:EI.
  { change (len []) with 0. replace (0 >? 0) with false by lia.
    exists r, None. split; auto. split; [apply (rep_flat_true L flat); auto|]. split; auto. split; auto.
    split; [split; auto|]. discriminate. }
  rewrite <- EI in *. assert (items q <> []) as Hne by congruence. clear EI x0 t0.
  apply len_pos in Hne as Hn'. replace (len (items q) >? 0) with true by lia.
  assert (0 <= start r < alloc r) as Hs by (destruct Lay as [(? & _)|(_ & ? & _)]; [congruence|auto]).
  assert (forall d' o, 0 <= o -> (forall i x, 0 <= i -> nth_error (items q) (Z.to_nat i) = Some x -> cell d' (o + i) = Ok x) ->
     slice d' o (o + len (items q)) = map Some (items q)) as SL.
  { clear. intros d'. generalize (items q) as l. induction l as [|x l IH]; intros o Ho HC.
    - rewrite slice_nil by (change (len []) with 0; lia). reflexivity.
    - rewrite len_cons. pose proof (len_nonneg l).
      assert (rd d' o = Ok (Some x)) as Rd.
      { apply rd_ok. specialize (HC 0 x ltac:(lia) eq_refl). rewrite Z.add_0_r in HC. apply cell_some in HC. exact HC. }
      rewrite (slice_cons d' o _ (Some x) Rd) by lia.
      cbn [map]. f_equal. replace (o + (1 + len l)) with (o + 1 + len l) by lia. apply IH; [lia|].
      intros i y Hi Hy. replace (o + 1 + i) with (o + (i + 1)) by lia. apply HC; [lia|].
      replace (Z.to_nat (i + 1)) with (S (Z.to_nat i)) by lia. exact Hy. }
  destruct ((start r >? 0) && (start r >=? end_ r)) eqn:E3.
  - rewrite g_new_ok by lia. cbn [bind].
    assert (len (repeat (@None Z) (Z.to_nat (len (items q)))) = len (items q)) as Lrep by (rewrite len_repeat; lia).
    destruct (unwrap _ _ _ _ _ (repeat None (Z.to_nat (len (items q)))) Lay Hne HD ltac:(lia)) as (_ & U2).
    destruct U2 as (He & K & b1 & buf & M1 & M2 & LB & C); [lia|].
    rewrite arith_ok by lia. cbn [bind]. rewrite M1. cbn [bind]. rewrite M2. cbn [bind].
    rewrite crem_wrap by lia. cbn [bind].
    eexists _, _. split; [reflexivity|]. split; [|split; [reflexivity|split; [reflexivity|split]]].
    + apply (rep_buf L flat); auto; try lia.
      pose proof (layout_linear (alloc r) buf (items q) ltac:(lia) Hne C) as LL.
      unfold at_ in LL. rewrite !Z.add_0_l in LL. exact LL.
    + split; [discriminate|congruence].
    + intros o Ho. inversion Ho; subst o. apply SL; [cbn; lia|]. exact C.
  - cbn [bind]. eexists _, _. split; [reflexivity|]. split; [apply (rep_flat_true L flat); auto|].
    split; [reflexivity|]. split; [reflexivity|]. split; [split; [discriminate|congruence]|].
    intros o Ho. inversion Ho; subst o. apply SL; [lia|].
    intros i x Hi Hx. pose proof (nth_error_bound _ _ _ Hi Hx).
    destruct Lay as [(? & _)|(_ & _ & _ & He & Hc)]; [congruence|].
    specialize (Hc i x Hi Hx). unfold at_ in *.
    replace (start r + i <? alloc r) with true in Hc; [exact Hc|].
    destruct He as [He|He]; destruct (start r + len (items q) <? alloc r) eqn:E4; lia.
Qed.

(* ---------------- adding ---------------- *)

Lemma layout_put a s e d l x : layout a s e d l -> len l < a ->
  let s0 := if s <? 0 then 0 else s in let e0 := if s <? 0 then 0 else e in
  0 <= e0 < a /\ (e0 < len d -> layout a s0 (if e0 + 1 <? a then e0 + 1 else e0 + 1 - a) (upd d (Z.to_nat e0) (Some x)) (l ++ [x])).
Proof.
  intros Lay Hl s0 e0. pose proof (len_nonneg l).
  destruct Lay as [(-> & -> & ->)|(Hne & Hs & Hn & He & Hc)].
  - cbn in s0, e0. subst s0 e0. split; [lia|]. intros Hd. right. split; [discriminate|]. split; [lia|].
    change (len ([] ++ [x])) with 1. split; [lia|]. split; [left; reflexivity|].
    intros i y Hi Hy. assert (i = 0) as ->.
    { pose proof (nth_error_bound _ _ _ Hi Hy). change (len ([] ++ [x])) with 1 in *. lia. }
    cbn in Hy. inversion Hy; subst y. unfold at_. replace (0 + 0 <? a) with true by lia.
    apply cell_upd_eq. lia.
  - apply len_pos in Hne as Hne'. unfold s0, e0. replace (s <? 0) with false by lia.
    destruct He as [He|He]; [|lia].
    assert (0 <= e < a) by (unfold at_ in He; destruct (s + len l <? a) eqn:E; lia).
    split; auto. intros Hd. right. split; [destruct l; discriminate|]. split; auto.
    rewrite len_app. change (len [x]) with 1. split; [lia|]. split.
    + left. unfold at_ in *. destruct (s + len l <? a) eqn:E; destruct (e + 1 <? a) eqn:E2; destruct (s + (len l + 1) <? a) eqn:E3; lia.
    + intros i y Hi Hy. pose proof (nth_error_bound _ _ _ Hi Hy) as Hb. rewrite len_app in Hb. change (len [x]) with 1 in Hb.
      destruct (Z.lt_ge_cases i (len l)).
      * rewrite cell_upd_ne; [|lia|].
        { apply Hc; auto. rewrite nth_error_app1 in Hy; auto. unfold len in *. lia. }
        rewrite He. unfold at_. destruct (s + len l <? a) eqn:E; destruct (s + i <? a) eqn:E3; lia.
      * assert (i = len l) as -> by lia.
        rewrite nth_error_app2 in Hy by (unfold len; lia).
        replace (Z.to_nat (len l) - length l)%nat with O in Hy by (unfold len; lia).
        inversion Hy; subst y. rewrite <- He. apply cell_upd_eq. lia.
Qed.

Lemma layout_put_front a s e d l x : layout a s e d l -> len l < a ->
  let s0 := if s >=? 0 then (if s + a - 1 <? a then s + a - 1 else s - 1) else 0 in
  let e0 := if s >=? 0 then e else 1 in
  0 <= s0 < a /\ (s0 < len d -> layout a s0 e0 (upd d (Z.to_nat s0) (Some x)) (x :: l)).
Proof.
  intros Lay Hl s0 e0. pose proof (len_nonneg l).
  destruct Lay as [(-> & -> & ->)|(Hne & Hs & Hn & He & Hc)].
  - cbn in s0, e0. subst s0 e0. split; [lia|]. intros Hd. right. split; [discriminate|]. split; [lia|].
    change (len [x]) with 1. split; [lia|]. split.
    + destruct (Z.eq_dec a 1); [right; lia|left]. unfold at_. replace (0 + 1 <? a) with true by lia. lia.
    + intros i y Hi Hy. assert (i = 0) as ->.
      { pose proof (nth_error_bound _ _ _ Hi Hy). change (len [x]) with 1 in *. lia. }
      cbn in Hy. inversion Hy; subst y. unfold at_. replace (0 + 0 <? a) with true by lia.
      apply cell_upd_eq. lia.
  - apply len_pos in Hne as Hne'. unfold s0, e0. replace (s >=? 0) with true by lia.
    destruct He as [He|He]; [|lia].
    set (s1 := if s + a - 1 <? a then s + a - 1 else s - 1).
    assert (0 <= s1 < a) by (unfold s1; destruct (s + a - 1 <? a) eqn:E; lia).
    split; auto. intros Hd. right. split; [discriminate|]. split; auto.
    rewrite len_cons. split; [lia|]. split.
    + left. unfold at_, s1 in *. destruct (s + len l <? a) eqn:E; destruct (s + a - 1 <? a) eqn:E2;
      match goal with |- _ = (if ?c then _ else _) => destruct c eqn:E3 end; lia.
    + intros i y Hi Hy. pose proof (nth_error_bound _ _ _ Hi Hy) as Hb. rewrite len_cons in Hb.
      destruct (Z.eq_dec i 0) as [->|].
      * cbn in Hy. inversion Hy; subst y. unfold at_. replace (s1 + 0 <? a) with true by lia.
        rewrite Z.add_0_r. apply cell_upd_eq. lia.
      * replace (Z.to_nat i) with (S (Z.to_nat (i - 1))) in Hy by lia. cbn in Hy.
        specialize (Hc (i - 1) y ltac:(lia) Hy).
        assert (at_ a s1 i = at_ a s (i - 1)) as Ea.
        { unfold at_, s1. destruct (s + a - 1 <? a) eqn:E2; destruct (s + (i - 1) <? a) eqn:E3;
          match goal with |- (if ?c then _ else _) = _ => destruct c eqn:E4 end; lia. }
        rewrite Ea. rewrite cell_upd_ne; auto; [lia|].
        rewrite <- Ea. unfold at_. destruct (s1 + i <? a) eqn:E; lia.
Qed.

Lemma put_spec L flat d r q x : rep L flat r q -> L < 2^30 ->
  (flat = true /\ put L d r x = Fail OobWrite) \/
  (put L d r x = Fail AllocAbort /\ L < Z.max (len (items q) + 1) (2 * alloc r) /\ alloc r < len (items q) + 1) \/
  exists r', freed r' = freed r /\ alloc r' <= Z.max (alloc r) (Z.max (len (items q) + 1) (2 * len (items q))) /\
   (0 <= bound q -> alloc r' <= Z.max (alloc r) (bound q)) /\
   ((put L d r x = Ok (false, r') /\ r' = r /\ len (items q) = alloc r /\ 0 <= bound q <= len (items q)) \/
    (put L d r x = Ok (true, r') /\ rep L flat r' (with_items q (items q ++ [x])))).
Proof.
  intros R HL. pose proof (rp_alloc _ _ _ _ R) as HA. pose proof (rp_lay _ _ _ _ R) as Lay.
  pose proof (layout_le _ _ _ _ _ Lay ltac:(lia)) as HN. pose proof (len_nonneg (items q)).
  unfold put. rewrite (rep_size L flat d r q R HL). cbn [bind].
  rewrite arith_ok by lia. cbn [bind].
  destruct (reserve_spec L flat d r q (len (items q) + 1) R HL) as [(E & H1 & H2)|(r' & R' & F & D)].
  { right. left. rewrite E. split; auto. }
  destruct D as [(E & -> & H1 & H2)|(E & D)].
  { right. right. exists r. rewrite E. cbn [bind]. split; auto. split; [lia|]. split; [lia|]. left. split; auto. split; auto. split; lia. }
  rewrite E. cbn [bind].
  assert (len (items q) < alloc r') as Hlt by (destruct D as [(-> & ?)|?]; lia).
  destruct (layout_put _ _ _ _ _ x (rp_lay _ _ _ _ R') Hlt) as (He & Lay').
  pose proof (rp_alloc _ _ _ _ R') as HA'.
  assert (forall r0, r0 = (if start r' <? 0 then set_se r' 0 0 else r') ->
    start r0 = (if start r' <? 0 then 0 else start r') /\ end_ r0 = (if start r' <? 0 then 0 else end_ r') /\
    alloc r0 = alloc r' /\ data r0 = data r' /\ freed r0 = freed r' /\ rep L flat (set_se r0 (start r') (end_ r')) q) as AUX.
  { intros r0 ->. destruct (start r' <? 0) eqn:Es; repeat (split; [reflexivity|]);
    (destruct R' as [R1 R2 R3 R4 R5 R6 R7 R8 R9]; constructor; simp; auto). }
  destruct (AUX _ eq_refl) as (A1 & A2 & A3 & A4 & A5 & A6).
  set (r0 := if start r' <? 0 then set_se r' 0 0 else r') in *. clearbody r0. clear AUX.
  rewrite <- A2 in He, Lay'. rewrite <- A1 in Lay'.
  rewrite A4, A3. destruct (Z.lt_ge_cases (end_ r0) (len (data r'))) as [Hd|Hd].
  2:{ left. split.
      - destruct flat; auto. rewrite (rp_flat _ _ _ _ R' eq_refl) in Hd. lia.
      - unfold wr. replace ((0 <=? end_ r0) && (end_ r0 <? len (data r'))) with false by lia. reflexivity. }
  right. right. specialize (Lay' Hd). rewrite wr_in by lia. cbn [bind].
  rewrite arith_ok by lia. cbn [bind]. rewrite crem_wrap by lia. cbn [bind].
  eexists. split; [|split; [|split; [|right; split; [reflexivity|]]]].
  - simp. congruence.
  - simp. destruct D as [(-> & ?)|?]; lia.
  - simp. destruct D as [(-> & ?)|(? & ? & D)]; [lia|]. intros Hb. specialize (D Hb). lia.
  - destruct A6 as [R1 R2 R3 R4 R5 R6 R7 R8 R9]. simp. constructor; simp; auto; rewrite ?len_upd.
    + rewrite <- A3, <- A4. exact R7.
    + rewrite <- A3, <- A4. exact R8.
Qed.

Lemma put_front_spec L flat d r q x : rep L flat r q -> L < 2^30 ->
  (flat = true /\ put_front L d r x = Fail OobWrite) \/
  (put_front L d r x = Fail AllocAbort /\ L < Z.max (len (items q) + 1) (2 * alloc r) /\ alloc r < len (items q) + 1) \/
  exists r', freed r' = freed r /\ alloc r' <= Z.max (alloc r) (Z.max (len (items q) + 1) (2 * len (items q))) /\
   (0 <= bound q -> alloc r' <= Z.max (alloc r) (bound q)) /\
   ((put_front L d r x = Ok (false, r') /\ r' = r /\ len (items q) = alloc r /\ 0 <= bound q <= len (items q)) \/
    (put_front L d r x = Ok (true, r') /\ rep L flat r' (with_items q (x :: items q)))).
Proof.
  intros R HL. pose proof (rp_alloc _ _ _ _ R) as HA. pose proof (rp_lay _ _ _ _ R) as Lay.
  pose proof (layout_le _ _ _ _ _ Lay ltac:(lia)) as HN. pose proof (len_nonneg (items q)).
  unfold put_front. rewrite (rep_size L flat d r q R HL). cbn [bind].
  rewrite arith_ok by lia. cbn [bind].
  destruct (reserve_spec L flat d r q (len (items q) + 1) R HL) as [(E & H1 & H2)|(r' & R' & F & D)].
  { right. left. rewrite E. split; auto. }
  destruct D as [(E & -> & H1 & H2)|(E & D)].
  { right. right. exists r. rewrite E. cbn [bind]. split; auto. split; [lia|]. split; [lia|]. left. split; auto. split; auto. split; lia. }
  rewrite E. cbn [bind].
  assert (len (items q) < alloc r') as Hlt by (destruct D as [(-> & ?)|?]; lia).
  pose proof (rp_lay _ _ _ _ R') as LayR.
  destruct (layout_put_front _ _ _ _ _ x LayR Hlt) as (He & Lay').
  pose proof (rp_alloc _ _ _ _ R') as HA'.
  assert (start r' < alloc r') by (destruct LayR as [(_ & -> & _)|(_ & ? & _)]; lia).
  set (s0 := if start r' >=? 0 then (if start r' + alloc r' - 1 <? alloc r' then start r' + alloc r' - 1 else start r' - 1) else 0) in *.
  set (e0 := if start r' >=? 0 then end_ r' else 1) in *.
  assert ((if start r' >=? 0 then
               do a <- arith32 d (start r' + alloc r');
               do a <- arith32 d (a - 1);
               do a <- crem a (alloc r');
               Ok (set_se r' a (end_ r'))
             else Ok (set_se r' 0 1)) = Ok (set_se r' s0 e0)) as ->.
  { unfold s0, e0. destruct (start r' >=? 0) eqn:Es; [|reflexivity].
    rewrite arith_ok by lia. cbn [bind]. rewrite arith_ok by lia. cbn [bind].
    rewrite crem_wrap by lia. cbn [bind].
    replace (start r' + alloc r' - 1 - alloc r') with (start r' - 1) by lia. reflexivity. }
  cbn [bind]. simp.
  destruct (Z.lt_ge_cases s0 (len (data r'))) as [Hd|Hd].
  2:{ left. split.
      - destruct flat; auto. rewrite (rp_flat _ _ _ _ R' eq_refl) in Hd. lia.
      - unfold wr. replace ((0 <=? s0) && (s0 <? len (data r'))) with false by lia. reflexivity. }
  right. right. specialize (Lay' Hd). rewrite wr_in by lia. cbn [bind].
  eexists. split; [|split; [|split; [|right; split; [reflexivity|]]]].
  - simp. congruence.
  - simp. destruct D as [(-> & ?)|?]; lia.
  - simp. destruct D as [(-> & ?)|(? & ? & D)]; [lia|]. intros Hb. specialize (D Hb). lia.
  - destruct R' as [R1 R2 R3 R4 R5 R6 R7 R8 R9]. constructor; simp; auto; rewrite ?len_upd; auto.
Qed.

(* ---------------- the rest ---------------- *)

Lemma data_at_spec L flat d r q i : rep L flat r q -> L < 2^30 -> in_s32 i ->
  data_at d r i = Ok (if i <? 0 then 0 else nth (Z.to_nat i) (items q) 0).
Proof.
  intros R HL Hi. pose proof (rp_alloc _ _ _ _ R) as HA. pose proof (rp_lay _ _ _ _ R) as Lay.
  pose proof (layout_le _ _ _ _ _ Lay ltac:(lia)) as HN.
  unfold data_at. destruct (i >=? 0) eqn:E1.
  2:{ replace (i <? 0) with true by lia. reflexivity. }
  replace (i <? 0) with false by lia. rewrite (rep_size L flat d r q R HL). cbn [bind].
  destruct (i <? len (items q)) eqn:E2.
  - destruct Lay as [(E & _)|(Hne & Hs & Hn & He & Hc)]; [rewrite E in E2; cbn in E2; lia|].
    destruct (nth_error_len (items q) i ltac:(lia)) as (x & Hx).
    rewrite arith_ok by lia. cbn [bind]. rewrite crem_wrap by lia. cbn [bind].
    specialize (Hc i x ltac:(lia) Hx). unfold at_ in Hc. rewrite Hc.
    apply nth_error_nth with (d := 0) in Hx. congruence.
  - rewrite nth_overflow by (unfold len in E2; lia). reflexivity.
Qed.

Lemma can_put_spec L flat d r q n : rep L flat r q -> L < 2^30 -> -2^31 <= n < 2^30 ->
  can_put d r n = Ok ((bound q <? 0) || (len (items q) + n <=? bound q)).
Proof.
  intros R HL Hn. pose proof (rp_alloc _ _ _ _ R) as HA. pose proof (rp_lay _ _ _ _ R) as Lay.
  pose proof (layout_le _ _ _ _ _ Lay ltac:(lia)) as HN. pose proof (len_nonneg (items q)).
  unfold can_put. rewrite (rp_max _ _ _ _ R).
  destruct (bound q <? 0) eqn:E; [reflexivity|].
  rewrite (rep_size L flat d r q R HL). cbn [bind]. rewrite arith_ok by lia. reflexivity.
Qed.

Lemma frees_app a b : frees (a ++ b) = frees a ++ frees b.
Proof. apply flat_map_app. Qed.
Lemma frees_removed q l : frees (removed q l) = rem_log q l.
Proof.
  unfold frees, removed, rem_log. destruct (fn q); induction l as [|x l IH]; cbn; auto.
  f_equal. exact IH.
Qed.

Lemma set_max_size_spec L flat d r q m : rep L flat r q -> L < 2^30 -> in_s32 m ->
  let m' := if m <? 0 then -1 else m in
  let k := if (m' =? bound q) || (m' <? 0) then 0 else dropping (len (items q) - m') (items q) in
  exists r', set_max_size d [] r m = Ok r' /\
    rep L flat r' (mkDq (skipn (Z.to_nat k) (items q)) m' (fn q) (refs q)) /\
    freed r' = freed r ++ rem_log q (firstn (Z.to_nat k) (items q)).
Proof.
  intros R HL Hm m' k. unfold in_s32 in Hm.
  pose proof (rp_alloc _ _ _ _ R) as HA. pose proof (rp_lay _ _ _ _ R) as Lay.
  pose proof (layout_le _ _ _ _ _ Lay ltac:(lia)) as HN. pose proof (len_nonneg (items q)).
  assert (-1 <= m' < 2^31) as Hm' by (unfold m'; destruct (m <? 0) eqn:E; lia).
  unfold set_max_size. cbv zeta. fold m'. rewrite (rp_max _ _ _ _ R).
  destruct (bound q =? m') eqn:E; cbn [negb].
  { exists r. assert (k = 0) as -> by (unfold k; replace (m' =? bound q) with true by lia; reflexivity).
    assert (bound q = m') as Eb by lia. split; auto. split.
    - destruct R as [R1 R2 R3 R4 R5 R6 R7 R8 R9]. constructor; simp; auto. congruence.
    - unfold rem_log. destruct (fn q); cbn; rewrite app_nil_r; reflexivity. }
  rewrite (rep_size L flat d r q R HL). cbn [bind].
  destruct ((m' >=? 0) && (len (items q) >? m')) eqn:E2.
  - assert (k = dropping (len (items q) - m') (items q)) as ->.
    { unfold k. replace ((m' =? bound q) || (m' <? 0)) with false by lia. reflexivity. }
    destruct (drop_spec L flat d r q (len (items q) - m') R HL ltac:(unfold in_s32; lia)) as (r' & D & R' & F).
    rewrite D. cbn [bind]. unfold touch. rewrite (rp_gone _ _ _ _ R'). cbn [bind].
    eexists. split; [reflexivity|]. split; [|exact F].
    destruct R' as [R1 R2 R3 R4 R5 R6 R7 R8 R9]. constructor; simp; auto.
  - assert (k = 0) as ->.
    { unfold k. destruct ((m' =? bound q) || (m' <? 0)) eqn:E3; auto. unfold dropping. lia. }
    cbn [bind]. unfold touch. rewrite (rp_gone _ _ _ _ R). cbn [bind].
    eexists. split; [reflexivity|]. split.
    + destruct R as [R1 R2 R3 R4 R5 R6 R7 R8 R9]. constructor; simp; auto.
    + simp. unfold rem_log. destruct (fn q); cbn; rewrite app_nil_r; reflexivity.
Qed.

Lemma unref_loop_spec L flat d f q : L < 2^30 -> fn q = Some f -> forall rest done_ r,
  rep L flat r q -> items q = done_ ++ rest ->
  exists r', unref_loop d (length rest) (len done_) [] r = Ok r' /\ rep L flat r' q /\
    freed r' = freed r ++ map (pair f) rest.
Proof.
  intros HL F. induction rest as [|x rest IH]; intros done_ r R E.
  - exists r. split; auto. split; auto. rewrite app_nil_r. reflexivity.
  - pose proof (rp_alloc _ _ _ _ R) as HA. pose proof (rp_lay _ _ _ _ R) as Lay.
    destruct Lay as [(E' & _)|(Hne & Hs & Hn & He & Hc)]; [rewrite E' in E; destruct done_; discriminate|].
    assert (nth_error (items q) (Z.to_nat (len done_)) = Some x) as Hx.
    { rewrite E, nth_error_app2 by (unfold len; lia).
      replace (Z.to_nat (len done_) - length done_)%nat with O by (unfold len; lia). reflexivity. }
    pose proof (len_nonneg done_). pose proof (nth_error_bound _ _ _ (len_nonneg done_) Hx) as Hb.
    specialize (Hc _ _ (len_nonneg done_) Hx). unfold at_ in Hc.
    destruct (IH (done_ ++ [x]) (log_free r f x)) as (r' & U & R' & F').
    { apply rep_log. exact R. } { rewrite <- app_assoc. exact E. }
    exists r'. split; [|split; auto].
    + cbn [length unref_loop]. unfold touch. rewrite (rp_gone _ _ _ _ R). cbn [bind].
      rewrite arith_ok by lia. cbn [bind]. rewrite crem_wrap by lia. cbn [bind].
      rewrite Hc. cbn [bind]. rewrite (rp_fn _ _ _ _ R), F. cbn [call_free bind].
      rewrite len_app in U. exact U.
    + rewrite F'. simp. rewrite <- app_assoc. reflexivity.
Qed.

Lemma rep_refs L flat r q n : rep L flat r q ->
  rep L flat (set_refs r n) (mkDq (items q) (bound q) (fn q) n).
Proof. intros [R1 R2 R3 R4 R5 R6 R7 R8 R9]. constructor; simp; auto. Qed.

Lemma unref_spec L flat d r q : rep L flat r q -> L < 2^30 ->
  exists r', unref d [] r = Ok r' /\
  if refs q =? 1 then gone r' = true /\ freed r' = freed r ++ rem_log q (items q)
  else rep L flat r' (mkDq (items q) (bound q) (fn q) (refs q - 1)) /\ freed r' = freed r.
Proof.
  intros R HL. unfold unref. rewrite (rp_refs _ _ _ _ R).
  pose proof (rep_refs L flat r q (refs q - 1) R) as R1. set (r1 := set_refs r (refs q - 1)) in *.
  cbv zeta. change (ref_count r1) with (refs q - 1).
  destruct (refs q =? 1) eqn:E.
  - replace (refs q - 1 =? 0) with true by lia.
    rewrite (rp_fn _ _ _ _ R1). cbn [fn]. unfold rem_log. destruct (fn q) as [f|] eqn:F.
    + rewrite (rep_size L flat d _ _ R1 HL). cbn [bind items].
      assert (fn (mkDq (items q) (bound q) (Some f) (refs q - 1)) = Some f) as F1 by reflexivity.
      destruct (unref_loop_spec L flat d f _ HL F1 (items q) [] r1 R1 eq_refl) as (r' & U & R' & F').
      unfold len. rewrite Nat2Z.id. change (len []) with 0 in U. rewrite U. cbn [bind].
      rewrite (rp_gone _ _ _ _ R'). eexists. split; [reflexivity|]. split; auto.
    + cbn [bind]. rewrite (rp_gone _ _ _ _ R1). eexists. split; [reflexivity|]. split; auto.
      simp. rewrite app_nil_r. reflexivity.
  - replace (refs q - 1 =? 0) with false by lia. exists r1. split; auto.
Qed.

(* ---------------- the capacity changes only in reserve and compact ---------------- *)

Lemma get_alloc d r x r' : get d r = Ok (x, r') -> alloc r' = alloc r.
Proof.
  unfold get. destruct (start r >=? 0); [|intros H; inversion H; auto].
  destruct (cell (data r) (start r)); cbn [bind]; [|discriminate].
  destruct (arith32 d (start r + 1)) as [s|]; cbn [bind]; [|discriminate].
  destruct (s =? end_ r); [intros H; inversion H; auto|].
  destruct (crem s (alloc r)) as [s'|]; cbn [bind]; [|discriminate].
  destruct (s' =? end_ r); intros H; inversion H; auto.
Qed.

Lemma clear_loop_alloc d f : forall n r r', clear_loop d n f [] r = Ok r' -> alloc r' = alloc r.
Proof.
  induction n as [|n IH]; intros r r' H; cbn [clear_loop] in H; [inversion H; auto|].
  destruct (get d r) as [[x r1]|] eqn:G; cbn [bind] in H; [|discriminate]. apply get_alloc in G.
  cbn [call_free bind] in H. destruct n as [|n]; [inversion H; subst; simp; auto|].
  destruct (touch (log_free r1 f x)); cbn [bind] in H; [|discriminate].
  destruct (size d (log_free r1 f x)) as [s|]; cbn [bind] in H; [|discriminate].
  destruct (s >? 0).
  - apply IH in H. rewrite H. simp. auto.
  - inversion H; subst. simp. auto.
Qed.
Lemma clear_alloc d r r' : clear d [] r = Ok r' -> alloc r' = alloc r.
Proof.
  unfold clear. destruct (size d r) as [n|]; cbn [bind]; [|discriminate].
  destruct (n >? 0); [|intros H; inversion H; auto].
  destruct (free_func r); [apply clear_loop_alloc|intros H; inversion H; auto].
Qed.
Lemma drop_loop_alloc d : forall n r r', drop_loop d n [] r = Ok r' -> alloc r' = alloc r.
Proof.
  induction n as [|n IH]; intros r r' H; cbn [drop_loop] in H; [inversion H; auto|].
  destruct (touch r); cbn [bind] in H; [|discriminate].
  destruct (cell (data r) (start r)) as [x|]; cbn [bind] in H; [|discriminate].
  destruct (free_func r) as [f|]; [|discriminate]. cbn [call_free bind] in H.
  destruct (touch (log_free r f x)); cbn [bind] in H; [|discriminate]. simp.
  destruct (arith32 d (start r + 1)) as [s|]; cbn [bind] in H; [|discriminate].
  destruct (crem s (alloc r)) as [s'|]; cbn [bind] in H; [|discriminate].
  apply IH in H. rewrite H. reflexivity.
Qed.
Lemma drop_alloc d r n k r' : drop d [] r n = Ok (k, r') -> alloc r' = alloc r.
Proof.
  unfold drop. destruct (n >? 0); [|intros H; inversion H; auto].
  destruct (size d r) as [s|]; cbn [bind]; [|discriminate].
  destruct (s >? 0); [|intros H; inversion H; auto].
  destruct (n >=? s).
  - destruct (clear d [] r) as [r1|] eqn:C; cbn [bind]; [|discriminate]. apply clear_alloc in C.
    intros H; inversion H; subst; auto.
  - destruct (free_func r).
    + destruct (drop_loop d (Z.to_nat n) [] r) as [r1|] eqn:C; cbn [bind]; [|discriminate]. apply drop_loop_alloc in C.
      intros H; inversion H; subst; auto.
    + destruct (arith32 d (start r + n)) as [a|]; cbn [bind]; [|discriminate].
      destruct (crem a (alloc r)) as [a'|]; cbn [bind]; [|discriminate]. intros H; inversion H; auto.
Qed.
Lemma drop_last_loop_alloc d : forall n r r', drop_last_loop d n [] r = Ok r' -> alloc r' = alloc r.
Proof.
  induction n as [|n IH]; intros r r' H; cbn [drop_last_loop] in H; [inversion H; auto|].
  destruct (touch r); cbn [bind] in H; [|discriminate].
  destruct (arith32 d (end_ r + alloc r)) as [s|]; cbn [bind] in H; [|discriminate].
  destruct (arith32 d (s - 1)) as [s2|]; cbn [bind] in H; [|discriminate].
  destruct (crem s2 (alloc r)) as [s'|]; cbn [bind] in H; [|discriminate].
  destruct (cell (data r) s') as [x|]; cbn [bind] in H; [|discriminate]. simp.
  destruct (free_func r) as [f|]; [|discriminate]. cbn [call_free bind] in H.
  apply IH in H. rewrite H. reflexivity.
Qed.
Lemma drop_last_alloc d r n k r' : drop_last d [] r n = Ok (k, r') -> alloc r' = alloc r.
Proof.
  unfold drop_last. destruct (n >? 0); [|intros H; inversion H; auto].
  destruct (size d r) as [s|]; cbn [bind]; [|discriminate].
  destruct (s >? 0); [|intros H; inversion H; auto].
  destruct (n >=? s).
  - destruct (clear d [] r) as [r1|] eqn:C; cbn [bind]; [|discriminate]. apply clear_alloc in C.
    intros H; inversion H; subst; auto.
  - destruct (free_func r).
    + destruct (drop_last_loop d (Z.to_nat n) [] r) as [r1|] eqn:C; cbn [bind]; [|discriminate]. apply drop_last_loop_alloc in C.
      intros H; inversion H; subst; auto.
    + destruct (arith32 d (end_ r + alloc r)) as [a|]; cbn [bind]; [|discriminate].
      destruct (arith32 d (a - n)) as [a2|]; cbn [bind]; [|discriminate].
      destruct (crem a2 (alloc r)) as [a'|]; cbn [bind]; [|discriminate]. intros H; inversion H; auto.
Qed.
Lemma set_max_alloc d r m r' : set_max_size d [] r m = Ok r' -> alloc r' = alloc r.
Proof.
  unfold set_max_size. cbv zeta. set (m' := if m <? 0 then -1 else m).
  destruct (negb (maxsiz r =? m')); [|intros H; inversion H; auto].
  destruct (size d r) as [s|]; cbn [bind]; [|discriminate].
  destruct ((m' >=? 0) && (s >? m')).
  - destruct (drop d [] r (s - m')) as [[k r1]|] eqn:D; cbn [bind]; [|discriminate]. apply drop_alloc in D.
    destruct (touch r1); cbn [bind]; [|discriminate]. intros H; inversion H; auto.
  - cbn [bind]. destruct (touch r); cbn [bind]; [|discriminate]. intros H; inversion H; auto.
Qed.
Lemma unref_loop_alloc d : forall n i r r', unref_loop d n i [] r = Ok r' -> alloc r' = alloc r.
Proof.
  induction n as [|n IH]; intros i r r' H; cbn [unref_loop] in H; [inversion H; auto|].
  destruct (touch r); cbn [bind] in H; [|discriminate].
  destruct (arith32 d (start r + i)) as [s|]; cbn [bind] in H; [|discriminate].
  destruct (crem s (alloc r)) as [s'|]; cbn [bind] in H; [|discriminate].
  destruct (cell (data r) s') as [x|]; cbn [bind] in H; [|discriminate].
  destruct (free_func r) as [f|]; [|discriminate]. cbn [call_free bind] in H.
  apply IH in H. rewrite H. reflexivity.
Qed.
Lemma unref_alloc d r r' : unref d [] r = Ok r' -> alloc r' = alloc r.
Proof.
  unfold unref. cbv zeta. simp. destruct (ref_count r - 1 =? 0); [|intros H; inversion H; auto].
  destruct (free_func r).
  - destruct (size d (set_refs r (ref_count r - 1))) as [n|]; cbn [bind]; [|discriminate].
    destruct (unref_loop d (Z.to_nat n) 0 [] (set_refs r (ref_count r - 1))) as [r1|] eqn:U; cbn [bind]; [|discriminate].
    apply unref_loop_alloc in U. destruct (gone r1); [discriminate|]. intros H; inversion H; subst. simp. auto.
  - cbn [bind]. destruct (gone (set_refs r (ref_count r - 1))); [discriminate|]. intros H; inversion H; auto.
Qed.

(* ---------------- one call ---------------- *)

Definition flat_after (flat : bool) (o : op) : bool :=
  match o with Flatten => true | Compact => false | _ => flat end.
Definition adds (o : op) : Prop :=
  match o with Put _ | PutFront _ => True | _ => False end.
Definition refs_after (n : Z) (o : op) : Z :=
  match o with Ref => n + 1 | Unref => n - 1 | _ => n end.

(* an upper bound of the capacity *)
Definition asked (q : deque) (o : op) : Z :=
  match o with Put _ | PutFront _ => len (items q) + 1 | Reserve n => n | _ => 0 end.

Ltac fin := rewrite ?app_nil_r; auto; try lia.

Lemma step_spec L flat d r q o : rep L flat r q -> L < 2^30 -> fair o -> 0 < refs q ->
  (adds o /\ flat = true /\ step L d [] r o = Fail OobWrite) \/
  (step L d [] r o = Fail AllocAbort /\ L < Z.max (asked q o) (2 * alloc r) /\ alloc r < asked q o) \/
  exists x r' ev q', step L d [] r o = Ok (x, r') /\ call q o x ev q' /\ freed r' = freed r ++ frees ev /\
    refs q' = refs_after (refs q) o /\ (0 < refs q' -> rep L (flat_after flat o) r' q') /\
    alloc r' <= Z.max (alloc r) (2 * asked q o) /\
    (0 <= bound q -> alloc r' <= Z.max (alloc r) (bound q)).
Proof.
  intros R HL Hf Href.
  unfold step, touch. rewrite (rp_gone _ _ _ _ R). cbn [bind].
  pose proof (rp_alloc _ _ _ _ R) as HA. pose proof (rp_lay _ _ _ _ R) as Lay.
  pose proof (layout_le _ _ _ _ _ Lay ltac:(lia)) as HN. pose proof (len_nonneg (items q)).
  destruct o; cbn [fair adds flat_after refs_after asked] in *.
  - destruct (put_spec L flat d r q x R HL) as [(E1 & E)|[(E & H1 & H2)|(r' & F & HAl & HBd & D)]].
    + left. rewrite E. auto.
    + right. left. rewrite E. split; auto.
    + right. right. destruct D as [(E & -> & D1 & D2)|(E & D)]; rewrite E; cbn [bind]; eexists _, _, _, _; (split; [reflexivity|]).
      * split; [right; split; [reflexivity|]; split; [reflexivity|]; split; [reflexivity|lia]|].
        split; [cbn; rewrite app_nil_r; reflexivity|]. split; auto. split; auto. split; [lia|]. intros; lia.
      * split; [left; split; [reflexivity|]; split; [reflexivity|]; reflexivity|].
        split; [cbn; rewrite app_nil_r; auto|]. split; auto. split; auto. split; [lia|]. intros; lia.
  - destruct (put_front_spec L flat d r q x R HL) as [(E1 & E)|[(E & H1 & H2)|(r' & F & HAl & HBd & D)]].
    + left. rewrite E. auto.
    + right. left. rewrite E. split; auto.
    + right. right. destruct D as [(E & -> & D1 & D2)|(E & D)]; rewrite E; cbn [bind]; eexists _, _, _, _; (split; [reflexivity|]).
      * split; [right; split; [reflexivity|]; split; [reflexivity|]; split; [reflexivity|lia]|].
        split; [cbn; rewrite app_nil_r; reflexivity|]. split; auto. split; auto. split; [lia|]. intros; lia.
      * split; [left; split; [reflexivity|]; split; [reflexivity|]; reflexivity|].
        split; [cbn; rewrite app_nil_r; auto|]. split; auto. split; auto. split; [lia|]. intros; lia.
  - right. right. destruct (items q) as [|x t] eqn:E.
    + rewrite (get_empty L flat d r q R E). cbn [bind]. eexists _, _, [], q. split; [reflexivity|].
      split; [cbn; rewrite E; auto|]. split; [fin|]. split; auto. split; auto. split; [lia|]. intros; lia.
    + destruct (get_spec L flat d r q x t R HL E) as (s & e & G & R'). rewrite G. cbn [bind].
      eexists _, _, [EOut x], _. split; [reflexivity|].
      split; [cbn; rewrite E; auto|]. split; [simp; cbn; fin|]. split; [|split; [intros _; exact R'|split; [simp; lia|intros; simp; lia]]]. reflexivity.
  - right. right. destruct (items q) as [|x0 t0] eqn:E.
    + rewrite (get_last_empty L flat d r q R E). cbn [bind]. eexists _, _, [], q. split; [reflexivity|].
      split; [left; auto|]. split; [fin|]. split; auto. split; auto. split; [lia|]. intros; lia.
    + destruct (exists_last (l := x0 :: t0)) as (t & x & E2); [discriminate|]. rewrite E2 in E.
      destruct (get_last_spec L flat d r q t x R HL E) as (s & e & G & R'). rewrite G. cbn [bind].
      eexists _, _, [EOut x], _. split; [reflexivity|].
      split; [right; exists t, x; auto|]. split; [simp; cbn; fin|]. split; [|split; [intros _; exact R'|split; [simp; lia|intros; simp; lia]]]. reflexivity.
  - right. right. destruct (drop_spec L flat d r q n R HL Hf) as (r' & D & R' & F). rewrite D. cbn [bind].
    assert (alloc r' = alloc r) as HAl by (revert D; apply drop_alloc).
    eexists _, _, _, _. split; [reflexivity|]. split; [cbn; split; [reflexivity|]; split; reflexivity|].
    rewrite frees_removed. split; auto. split; auto. split; auto. split; [lia|]. intros; lia.
  - right. right. destruct (drop_last_spec L flat d r q n R HL Hf) as (keep & gn & r' & E & Lg & D & R' & F). rewrite D. cbn [bind].
    assert (alloc r' = alloc r) as HAl by (revert D; apply drop_last_alloc).
    eexists _, _, _, _. split; [reflexivity|]. split; [cbn; exists keep, gn; split; [auto|]; split; [auto|]; split; [reflexivity|]; split; reflexivity|].
    rewrite frees_removed. split; auto. split; auto. split; auto. split; [lia|]. intros; lia.
  - right. right. destruct (clear_spec L flat d r q R HL) as (r' & D & R' & F). rewrite D. cbn [bind].
    assert (alloc r' = alloc r) as HAl by (revert D; apply clear_alloc).
    eexists _, _, _, _. split; [reflexivity|]. split; [cbn; split; [reflexivity|]; split; reflexivity|].
    rewrite frees_removed. split; auto. split; auto. split; auto. split; [lia|]. intros; lia.
  - right. right. destruct (compact_spec L flat d r q R HL) as (r' & D & R' & F & HAl). rewrite D. cbn [bind].
    eexists _, _, [], q. split; [reflexivity|]. split; [cbn; auto|]. split; [cbn; fin|]. split; auto. split; auto. split; [lia|]. intros; lia.
  - destruct (reserve_spec L flat d r q n R HL) as [(E & K1 & K2)|(r' & R' & F & D)].
    + right. left. rewrite E. auto.
    + right. right. destruct D as [(E & -> & D1 & D2)|(E & D)]; rewrite E; cbn [bind]; eexists _, _, [], q; (split; [reflexivity|]).
      * split; [cbn; split; auto; eexists; split; [reflexivity|]; lia|]. split; [cbn; fin|]. split; auto. split; auto. split; [lia|]. intros; lia.
      * split; [cbn; split; auto; eexists; split; [reflexivity|]; auto|]. split; [cbn; fin|]. split; auto. split; auto.
        destruct D as [(-> & ?)|(? & ? & D)]; (split; [lia|]); intros Hb; try specialize (D Hb); lia.
  - right. right. destruct (set_max_size_spec L flat d r q n R HL Hf) as (r' & D & R' & F). rewrite D. cbn [bind].
    assert (alloc r' = alloc r) as HAl by (revert D; apply set_max_alloc).
    eexists _, _, _, _. split; [reflexivity|]. split; [cbn; split; [reflexivity|]; split; reflexivity|].
    rewrite frees_removed. split; auto. split; auto. split; auto. split; [lia|]. intros; lia.
  - right. right. eexists _, _, [], q. split; [reflexivity|]. split; [cbn; rewrite (rp_max _ _ _ _ R); auto|]. split; [cbn; fin|]. split; auto. split; auto. split; [lia|]. intros; lia.
  - right. right. eexists _, _, [], _. split; [reflexivity|]. split; [cbn; auto|]. split; [cbn; fin|]. split; auto. split; [|split; [simp; cbn; lia|intros; simp; cbn; lia]].
    intros _. destruct R as [R1 R2 R3 R4 R5 R6 R7 R8 R9]. constructor; cbn; auto.
  - right. right. rewrite (data_at_spec L flat d r q i R HL Hf). cbn [bind].
    eexists _, _, [], q. split; [reflexivity|]. split; [cbn; auto|]. split; [cbn; fin|]. split; auto. split; auto. split; [lia|]. intros; lia.
  - right. right. rewrite (rep_size L flat d r q R HL). cbn [bind].
    eexists _, _, [], q. split; [reflexivity|]. split; [cbn; auto|]. split; [cbn; fin|]. split; auto. split; auto. split; [lia|]. intros; lia.
  - right. right. rewrite (can_put_spec L flat d r q n R HL Hf). cbn [bind].
    eexists _, _, [], q. split; [reflexivity|]. split; [cbn; auto|]. split; [cbn; fin|]. split; auto. split; auto. split; [lia|]. intros; lia.
  - right. right. destruct (flatten_spec L flat d r q R HL) as (r' & p & D & R' & F & HAl & Hp & _). rewrite D. cbn [bind].
    eexists _, _, [], q. split; [reflexivity|]. split; [cbn; split; auto; eexists; split; [reflexivity|exact Hp]|].
    split; [cbn; fin|]. split; auto. split; auto. split; [lia|]. intros; lia.
  - right. right. eexists _, _, [], _. split; [reflexivity|]. split; [cbn; auto|]. split; [cbn; fin|]. split; auto. split; [|split; [simp; cbn; lia|intros; simp; cbn; lia]].
    intros _. unfold ring_ref. rewrite (rp_refs _ _ _ _ R). apply rep_refs. exact R.
  - right. right. destruct (unref_spec L flat d r q R HL) as (r' & D & C). rewrite D. cbn [bind].
    assert (alloc r' = alloc r) as HAl by (revert D; apply unref_alloc).
    destruct (refs q =? 1) eqn:E.
    + destruct C as (G & F). eexists _, _, _, _. split; [reflexivity|].
      split; [cbn; rewrite E; split; [reflexivity|]; split; reflexivity|].
      split; [rewrite F; f_equal; symmetry; apply (frees_removed q)|]. cbn [refs]. split; [lia|]. split; [lia|]. split; [lia|]. intros; lia.
    + destruct C as (R' & F). eexists _, _, [], _. split; [reflexivity|].
      split; [cbn; rewrite E; split; [reflexivity|]; split; reflexivity|].
      split; [cbn; fin|]. cbn [refs]. split; auto. split; auto. split; [lia|]. intros; lia.
Qed.
