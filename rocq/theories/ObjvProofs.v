(* Lemmas about the object array model *)
From Verif Require Import Base PtrvModel PtrvSpec PtrvProofs StrvModel StrvProofs ObjvModel ObjvSpec.
From Coq Require Import ZifyBool Arith.
Ltac Zify.zify_post_hook ::= Z.div_mod_to_equations.

(* ---------------- counting ---------------- *)
Lemma occ_app x a b : occ x (a ++ b) = occ x a + occ x b.
Proof. unfold occ. rewrite count_occ_app. lia. Qed.
Lemma occ_cons x y l : occ x (y :: l) = (if Nat.eq_dec y x then 1 else 0) + occ x l.
Proof. unfold occ. cbn [count_occ]. destruct (Nat.eq_dec y x); lia. Qed.
Lemma occ_nonneg x l : 0 <= occ x l.
Proof. unfold occ. lia. Qed.
Lemma occ_in x l : In x l -> 0 < occ x l.
Proof. unfold occ. intros H. apply (count_occ_In Nat.eq_dec) in H. lia. Qed.
Lemma occ_nil x : occ x [] = 0.
Proof. reflexivity. Qed.

Lemma counts_ext h r r' : (forall x, r x = r' x) -> counts h r -> counts h r'.
Proof. intros E H x. rewrite <- E. apply H. Qed.

Lemma counts_look h r x : counts h r -> 0 < r x -> look h x = Ok (r x) /\ (x < length h)%nat.
Proof.
  intros C H. destruct (C x) as (_ & H1 & H2). assert (x < length h)%nat as L by lia. split; auto. unfold look. rewrite H1 by auto.
  replace (r x =? 0) with false by lia. reflexivity.
Qed.

Lemma ref_spec h r x : counts h r -> 0 < r x -> exists h', obj_ref h x = Ok h' /\ counts h' (add1 r x 1) /\ length h' = length h.
Proof.
  intros C H. destruct (counts_look h r x C H) as (E & L). unfold obj_ref. rewrite E. cbn [bind]. eexists. split; [reflexivity|]. split; [|apply upd_length].
  intros y. rewrite upd_length. unfold add1. destruct (C y) as (H1 & H2 & H3). destruct (Nat.eq_dec x y) as [<-|N].
  - split; [lia|]. split; [|lia]. intros _. rewrite nth_error_upd_eq by auto. replace (r x + 1 =? 0) with false by lia. reflexivity.
  - rewrite nth_error_upd_ne by auto. auto.
Qed.

Lemma unref_spec h r x : counts h r -> 0 < r x -> exists h', obj_unref h x = Ok h' /\ counts h' (add1 r x (-1)) /\ length h' = length h.
Proof.
  intros C H. destruct (counts_look h r x C H) as (E & L). unfold obj_unref. rewrite E. cbn [bind]. eexists. split; [reflexivity|]. split; [|apply upd_length].
  intros y. rewrite upd_length. unfold add1. destruct (C y) as (H1 & H2 & H3). destruct (Nat.eq_dec x y) as [<-|N].
  - split; [lia|]. split; [|lia]. intros _. rewrite nth_error_upd_eq by auto. replace (r x + -1 =? 0) with (r x =? 1) by lia. do 2 f_equal.
  - rewrite nth_error_upd_ne by auto. auto.
Qed.

(* ---------------- new, copy, free ---------------- *)
Definition plus (r : nat -> Z) (l : list nat) : nat -> Z := fun y => r y + occ y l.
Definition minus (r : nat -> Z) (l : list nat) : nat -> Z := fun y => r y - occ y l.

Lemma new_loop_spec : forall args h r pre b, counts h r -> Forall (fun x => 0 < r x) args -> len b = len args + 1 ->
  exists h' y, new_loop h (map CPtr pre ++ b) (len pre) args = Ok (h', map CPtr (pre ++ args) ++ [y], len (pre ++ args)) /\ counts h' (plus r args) /\ length h' = length h.
Proof.
  induction args as [|x args IH]; intros h r pre b C F L.
  - destruct (len_cons_inv b 1 L ltac:(lia)) as (y & c & -> & Lc). destruct c; [|rewrite len_cons in Lc; pose proof (len_nonneg c0); lia].
    exists h, y. cbn [new_loop]. rewrite app_nil_r. split; auto. split; auto. eapply counts_ext; [|exact C]. intros z. unfold plus. rewrite occ_nil. lia.
  - rewrite len_cons in L. pose proof (len_nonneg args). destruct (len_cons_inv b _ L ltac:(lia)) as (y & c & -> & Lc). cbn [new_loop].
    rewrite <- (len_map CPtr pre). rewrite wr_mid. cbn [bind]. inversion F; subst. destruct (ref_spec h r x C) as (h1 & E1 & C1 & L1); auto. rewrite E1. cbn [bind]. rewrite len_map.
    replace (map CPtr pre ++ CPtr x :: c) with (map CPtr (pre ++ [x]) ++ c) by (rewrite map_app, <- app_assoc; reflexivity).
    replace (len pre + 1) with (len (pre ++ [x])) by (rewrite len_app; reflexivity).
    destruct (IH h1 (add1 r x 1) (pre ++ [x]) c) as (h' & z & E & C' & L'); auto; [|lia|].
    + eapply Forall_impl; [|eassumption]. intros a Ha. cbn in *. unfold add1. destruct (Nat.eq_dec x a); lia.
    + exists h', z. rewrite E. rewrite <- app_assoc. cbn [app]. split; auto. split; [|congruence]. eapply counts_ext; [|exact C']. intros a. unfold plus, add1. rewrite occ_cons. destruct (Nat.eq_dec x a); lia.
Qed.

Lemma holds_cells l y : holds (Some (map CPtr l ++ [CNull])) l /\ wr (map CPtr l ++ [y]) (len l) CNull = Ok (map CPtr l ++ [CNull]).
Proof. split; [exists []; reflexivity|]. rewrite <- (len_map CPtr l). apply wr_mid. Qed.

Lemma new_spec h r args : counts h r -> Forall (fun x => 0 < r x) args -> fits args ->
  exists h' v, objv_new h args = Ok (h', v) /\ holds v args /\ counts h' (plus r args) /\ length h' = length h.
Proof.
  intros C F L. unfold fits in L. pose proof (len_nonneg args). unfold objv_new. rewrite !u64_id by (unfold in_u64; rewrite ?u64_id; unfold in_u64; lia).
  destruct (new_loop_spec args h r [] (renew None (len args + 1)) C F) as (h' & y & E & C' & L').
  - unfold renew. rewrite firstn_nil. unfold len. cbn [app]. rewrite repeat_length. cbn [length]. unfold len in *. lia.
  - cbn [map app] in E. change (len []) with 0 in E. rewrite E. cbn [bind]. destruct (holds_cells args y) as (H1 & H2). rewrite H2. cbn [bind]. eauto 6.
Qed.

Lemma free_spec h r v l : counts h r -> holds v l -> (forall x, occ x l <= r x) ->
  exists h', objv_free h v = Ok h' /\ counts h' (minus r l) /\ length h' = length h.
Proof.
  intros C H Hr. destruct v as [b|]; cbn [objv_free].
  - destruct H as (junk & ->).
    destruct (walk_spec (fun h1 q => counts h1 (fun y => r y - occ y l + occ y q) /\ length h1 = length h) obj_unref junk) with (l := l) (w := h) as (h' & E & C' & L').
    + intros w x t (Cw & Lw). destruct (unref_spec w _ x Cw) as (w' & E & C' & L'); [rewrite occ_cons; destruct (Nat.eq_dec x x); [|congruence]; specialize (Hr x); pose proof (occ_nonneg x t); lia|].
      exists w'. split; auto. split; [|congruence]. eapply counts_ext; [|exact C']. intros y. unfold add1. rewrite occ_cons. destruct (Nat.eq_dec x y); lia.
    + split; auto. eapply counts_ext; [|exact C]. intros y. cbn. lia.
    + exists h'. split; auto. split; auto. eapply counts_ext; [|exact C']. intros y. unfold minus. rewrite occ_nil. lia.
  - cbn in H. subst. exists h. split; auto. split; auto. eapply counts_ext; [|exact C]. intros y. unfold minus. rewrite occ_nil. lia.
Qed.

Lemma copy_loop_spec junk : forall l h r n, counts h r -> Forall (fun x => 0 < r x) l -> 0 <= n -> n + len l < 2^60 ->
  exists h', copy_loop h (map CPtr l ++ CNull :: junk) n = Ok (h', n + len l) /\ counts h' (plus r l) /\ length h' = length h.
Proof.
  induction l as [|x l IH]; intros h r n C F Hn L; cbn [map app copy_loop as_ptr bind].
  - exists h. rewrite len_nil, Z.add_0_r. split; auto. split; auto. eapply counts_ext; [|exact C]. intros y. unfold plus. rewrite occ_nil. lia.
  - rewrite len_cons in L. pose proof (len_nonneg l). inversion F; subst. destruct (ref_spec h r x C) as (h1 & E1 & C1 & L1); auto. rewrite E1. cbn [bind].
    rewrite u64_id by (unfold in_u64; lia). destruct (IH h1 (add1 r x 1) (n + 1) C1) as (h' & E & C' & L'); [|lia|lia|].
    + eapply Forall_impl; [|eassumption]. intros a Ha. cbn in *. unfold add1. destruct (Nat.eq_dec x a); lia.
    + exists h'. rewrite E, len_cons. split; [do 2 f_equal; lia|]. split; [|congruence]. eapply counts_ext; [|exact C']. intros a. unfold plus, add1. rewrite occ_cons. destruct (Nat.eq_dec x a); lia.
Qed.

Lemma copy_spec h r v l : counts h r -> holds v l -> (forall x, occ x l <= r x) -> fits l ->
  exists h' v', objv_copy h v = Ok (h', v') /\ holds v' l /\ counts h' (plus r l) /\ length h' = length h.
Proof.
  intros C H Hr L. unfold fits in L. pose proof (len_nonneg l). destruct v as [b|]; cbn [objv_copy].
  - destruct H as (junk & ->). destruct (copy_loop_spec junk l h r 0 C) as (h' & E & C' & L'); [|lia|lia|].
    + apply Forall_forall. intros x Hx. apply occ_in in Hx. specialize (Hr x). lia.
    + rewrite E. cbn [bind]. rewrite Z.add_0_l, u64_id by (unfold in_u64; lia).
      replace (len l + 1 <=? _) with true by (rewrite len_app, len_cons, len_map; pose proof (len_nonneg junk); lia).
      eexists _, _. split; [reflexivity|]. split; [|auto]. exists []. unfold slice. cbn [Z.to_nat skipn]. rewrite Z.sub_0_r. replace (Z.to_nat (len l + 1)) with (length l + 1)%nat by (unfold len; lia). apply firstn_map_app.
  - cbn in H. subst. exists h, None. split; auto. split; [reflexivity|]. split; auto. eapply counts_ext; [|exact C]. intros y. unfold plus. rewrite occ_nil. lia.
Qed.

(* ---------------- add, insert, append ---------------- *)
Lemma fits_length v l : holds v l -> fits l -> ptrv_length v = Ok (len l).
Proof. intros H L. apply length_spec; auto. unfold fits in L. lia. Qed.

Lemma grow2 v l : holds v l -> exists x y, renew v (len l + 2) = map CPtr l ++ [x; y].
Proof.
  intros H. destruct (renew_grow v l 2 H ltac:(lia)) as (b & E & L). destruct (len_cons_inv b 2 L ltac:(lia)) as (x & c & -> & Lc).
  destruct (len_cons_inv c _ Lc ltac:(lia)) as (y & d & -> & Ld). destruct d; [|rewrite len_cons in Ld; pose proof (len_nonneg d); lia]. eauto.
Qed.

Lemma put2 l x y p : wr (map CPtr l ++ [x; y]) (len l) (CPtr p) = Ok (map CPtr (l ++ [p]) ++ [y]).
Proof. rewrite <- (len_map CPtr l). rewrite wr_mid, map_app, <- app_assoc. reflexivity. Qed.
Lemma put1 l p y : wr (map CPtr (l ++ [p]) ++ [y]) (len l + 1) CNull = Ok (map CPtr (l ++ [p]) ++ [CNull]).
Proof. replace (len l + 1) with (len (l ++ [p])) by (rewrite len_app; reflexivity). apply (holds_cells (l ++ [p]) y). Qed.

Lemma add_spec h r v l x : counts h r -> holds v l -> fits l -> 0 < r x ->
  exists h' v', objv_add h v (Some x) = Ok (h', v') /\ holds v' (l ++ [x]) /\ counts h' (add1 r x 1) /\ length h' = length h.
Proof.
  intros C H L Hx. cbn [objv_add]. rewrite (fits_length v l H L). cbn [bind]. unfold fits in L. pose proof (len_nonneg l). rewrite !u64_id by (unfold in_u64; lia).
  destruct (grow2 v l H) as (a & b & ->). rewrite put2. cbn [bind]. destruct (ref_spec h r x C Hx) as (h' & -> & C' & L'). cbn [bind]. rewrite put1. cbn [bind].
  eexists _, _. split; [reflexivity|]. split; [exists []; reflexivity|auto].
Qed.

Lemma move_up l1 y l2 a b : exists z, move (map CPtr (l1 ++ y :: l2) ++ [CNull; b]) (len l1 + 1) (len l1) (len (l1 ++ y :: l2) - len l1 + 1) =
  Ok (map CPtr l1 ++ z :: map CPtr (y :: l2) ++ [CNull]) /\ (a : nat) = a.
Proof.
  pose proof (len_nonneg l1). pose proof (len_nonneg l2). unfold move.
  assert (len (l1 ++ y :: l2) = len l1 + (1 + len l2)) as L1 by (rewrite len_app, len_cons; lia).
  assert (len (map CPtr (l1 ++ y :: l2) ++ [CNull; b]) = len l1 + (1 + len l2) + 2) as L2 by (rewrite len_app, len_map, L1; reflexivity). rewrite L1, L2.
  match goal with |- context [if ?c then _ else _] => replace c with true by lia end; cbv iota.
  match goal with |- context [if ?c then _ else _] => replace c with true by lia end; cbv iota.
  exists (CPtr y). split; auto. f_equal.
  assert (forall (p q r : list cell), slice (p ++ q ++ r) (len p) (len p + len q) = q) as SM.
  { intros p q r. rewrite slice_app_r. replace (len p + len q - len p) with (len q) by lia. apply slice_app_l. }
  rewrite map_app. cbn [map]. rewrite <- app_assoc. cbn [app].
  replace (slice (map CPtr l1 ++ CPtr y :: map CPtr l2 ++ [CNull; b]) 0 (len l1 + 1)) with (map CPtr l1 ++ [CPtr y]).
  2:{ symmetry. replace (map CPtr l1 ++ CPtr y :: map CPtr l2 ++ [CNull; b]) with ((map CPtr l1 ++ [CPtr y]) ++ map CPtr l2 ++ [CNull; b]) by (rewrite <- app_assoc; reflexivity).
      replace (len l1 + 1) with (len (map CPtr l1 ++ [CPtr y])) by (rewrite len_app, len_map; reflexivity). apply slice_app_l. }
  replace (slice (map CPtr l1 ++ CPtr y :: map CPtr l2 ++ [CNull; b]) (len l1) (len l1 + (len l1 + (1 + len l2) - len l1 + 1))) with (CPtr y :: map CPtr l2 ++ [CNull]).
  2:{ symmetry. replace (map CPtr l1 ++ CPtr y :: map CPtr l2 ++ [CNull; b]) with (map CPtr l1 ++ (CPtr y :: map CPtr l2 ++ [CNull]) ++ [b]) by (cbn [app]; rewrite <- !app_assoc; reflexivity).
      rewrite <- (len_map CPtr l1). replace (len (map CPtr l1) + (len (map CPtr l1) + (1 + len l2) - len (map CPtr l1) + 1)) with (len (map CPtr l1) + len (CPtr y :: map CPtr l2 ++ [CNull])); [apply SM|].
      rewrite len_cons, len_app, !len_map. change (len [CNull]) with 1. lia. }
  replace (slice (map CPtr l1 ++ CPtr y :: map CPtr l2 ++ [CNull; b]) _ _) with (@nil cell).
  2:{ symmetry. unfold slice. rewrite skipn_all2; [apply firstn_nil|]. rewrite app_length. cbn [length]. rewrite app_length, !map_length. cbn [length]. unfold len in *. lia. }
  rewrite app_nil_r, <- app_assoc. reflexivity.
Qed.

Lemma insert_spec h r v l x pos : counts h r -> holds v l -> fits l -> 0 < r x -> 0 <= pos < 2^64 ->
  exists h' v', objv_insert h v (Some x) pos = Ok (h', v') /\ holds v' (inserted x (Z.to_nat pos) l) /\ counts h' (add1 r x 1) /\ length h' = length h.
Proof.
  intros C H L Hx Hp. cbn [objv_insert]. rewrite (fits_length v l H L). cbn [bind]. unfold fits in L. pose proof (len_nonneg l). rewrite (u64_id (len l + 2)), ?(u64_id (len l + 1)) by (unfold in_u64; lia).
  destruct (ref_spec h r x C Hx) as (h' & Er & C' & L').
  destruct (Z.geb_spec pos (len l)) as [P|P].
  - destruct (grow2 v l H) as (a & b & ->). rewrite put2. cbn [bind]. rewrite Er. cbn [bind]. rewrite put1. cbn [bind].
    eexists _, _. split; [reflexivity|]. split; [|auto]. unfold inserted. rewrite firstn_all2, skipn_all2 by (unfold len in *; lia). exists []. reflexivity.
  - rewrite (u64_id (len l - pos)), (u64_id (pos + 1)), u64_id by (unfold in_u64; lia).
    destruct (nth_error l (Z.to_nat pos)) as [y|] eqn:Ey; [|apply nth_error_None in Ey; unfold len in *; lia].
    destruct (nth_error_split l _ Ey) as (l1 & l2 & -> & Hl1). assert (pos = len l1) as -> by (unfold len; lia).
    destruct v as [b|]; [|cbn in H; destruct l1; discriminate]. destruct H as (junk & ->).
    assert (exists q, renew (@Some blk (map CPtr (l1 ++ y :: l2) ++ CNull :: junk)) (len (l1 ++ y :: l2) + 2) = map CPtr (l1 ++ y :: l2) ++ [CNull; q]) as (q & ->).
    { unfold renew. replace (Z.to_nat (len (l1 ++ y :: l2) + 2)) with (length (map CPtr (l1 ++ y :: l2)) + 2)%nat by (rewrite map_length; unfold len; lia).
      rewrite firstn_app_2. rewrite <- app_assoc. rewrite app_length. cbn [length]. destruct junk as [|j junk]; cbn [firstn length app].
      - replace (_ - _)%nat with 1%nat by lia. exists CJunk. reflexivity.
      - replace (_ - _)%nat with 0%nat by lia. exists j. reflexivity. }
    destruct (move_up l1 y l2 0%nat q) as (z & -> & _). cbn [bind]. rewrite <- (len_map CPtr l1). rewrite wr_mid. cbn [bind]. rewrite Er. cbn [bind].
    eexists _, _. split; [reflexivity|]. split; [|auto]. unfold inserted. rewrite len_map. replace (Z.to_nat (len l1)) with (length l1) by (unfold len; lia).
    rewrite firstn_app, firstn_all, Nat.sub_diag, skipn_app, skipn_all, Nat.sub_diag. cbn [firstn skipn app]. rewrite app_nil_r. exists []. rewrite map_app, <- app_assoc. reflexivity.
Qed.

Lemma append_loop_spec junk : forall src h r l b y, counts h r -> Forall (fun x => 0 < r x) src -> len b = len src ->
  exists h', append_loop h (map CPtr l ++ b ++ [y]) (len l) (map CPtr src ++ CNull :: junk) = Ok (h', map CPtr (l ++ src) ++ [y], len (l ++ src)) /\
    counts h' (plus r src) /\ length h' = length h.
Proof.
  induction src as [|x src IH]; intros h r l b y C F L; cbn [map app append_loop as_ptr bind].
  - destruct b; [|rewrite len_cons, len_nil in L; pose proof (len_nonneg b); lia]. cbn [app]. rewrite app_nil_r. exists h. split; auto. split; auto.
    eapply counts_ext; [|exact C]. intros z. unfold plus. rewrite occ_nil. lia.
  - rewrite len_cons in L. pose proof (len_nonneg src). destruct (len_cons_inv b _ L ltac:(lia)) as (c & b' & -> & Lb). inversion F; subst.
    destruct (ref_spec h r x C) as (h1 & E1 & C1 & L1); auto. rewrite E1. cbn [bind app]. rewrite <- (len_map CPtr l). rewrite wr_mid. cbn [bind]. rewrite len_map.
    replace (map CPtr l ++ CPtr x :: b' ++ [y]) with (map CPtr (l ++ [x]) ++ b' ++ [y]) by (rewrite map_app, <- app_assoc; reflexivity).
    replace (len l + 1) with (len (l ++ [x])) by (rewrite len_app; reflexivity).
    destruct (IH h1 (add1 r x 1) (l ++ [x]) b' y C1) as (h' & E & C' & L'); [|lia|].
    + eapply Forall_impl; [|eassumption]. intros a Ha. cbn in *. unfold add1. destruct (Nat.eq_dec x a); lia.
    + exists h'. rewrite E. rewrite <- app_assoc. cbn [app]. split; auto. split; [|congruence]. eapply counts_ext; [|exact C']. intros a. unfold plus, add1. rewrite occ_cons. destruct (Nat.eq_dec x a); lia.
Qed.

Lemma append_spec h r a1 v l a2 w q : counts h r -> holds v l -> holds w q -> fits (l ++ q) -> (forall x, occ x q <= r x) -> a1 <> a2 ->
  exists h' v', objv_append h a1 v a2 w = Ok (h', v') /\ holds v' (l ++ q) /\ counts h' (plus r q) /\ length h' = length h.
Proof.
  intros C H Hq L Hr Na. unfold fits in L. rewrite len_app in L. pose proof (len_nonneg l). pose proof (len_nonneg q).
  unfold objv_append. rewrite (length_spec w q Hq) by lia. cbn [bind]. destruct (Z.gtb_spec (len q) 0) as [P|P].
  - rewrite (length_spec v l H) by lia. cbn [bind]. rewrite (u64_id (len l + len q)), u64_id by (unfold in_u64; lia). destruct w as [src|]; [|cbn in Hq; subst; cbn in P; lia].
    destruct Hq as (junk & ->). rewrite (proj2 (Z.eqb_neq a1 a2)) by auto. replace (len l + len q + 1) with (len l + (len q + 1)) by lia.
    destruct (renew_grow v l (len q + 1) H ltac:(lia)) as (b & -> & Lb).
    assert (exists c0 y, b = c0 ++ [y] /\ len c0 = len q) as (c0 & y & -> & Lc0).
    { destruct (@exists_last _ b) as (c0 & y & E); [intros ->; rewrite len_nil in Lb; lia|]. exists c0, y. split; auto. rewrite E, len_app in Lb. change (len [y]) with 1 in Lb. lia. }
    destruct (append_loop_spec junk q h r l c0 y C) as (h' & E & C' & L'); auto.
    { apply Forall_forall. intros x Hx. apply occ_in in Hx. specialize (Hr x). lia. }
    rewrite E. cbn [bind]. destruct (holds_cells (l ++ q) y) as (HA & HB). rewrite HB. cbn [bind]. eauto 6.
  - destruct q; [|rewrite len_cons in *; pose proof (len_nonneg q); lia]. exists h, v. rewrite app_nil_r. split; auto. split; auto. split; auto. eapply counts_ext; [|exact C]. intros z. unfold plus. rewrite occ_nil. lia.
Qed.

(* ---------------- find, remove ---------------- *)
Lemma ofind_spec x junk : forall l i,
  (ofind_loop x (map CPtr l ++ CNull :: junk) i = Ok (-1) /\ ~ In x l) \/
  (exists a c, l = a ++ x :: c /\ ~ In x a /\ ofind_loop x (map CPtr l ++ CNull :: junk) i = Ok (i + len a)).
Proof.
  induction l as [|y l IH]; intros i; cbn [map app ofind_loop as_ptr bind].
  - left. auto.
  - destruct (Nat.eqb_spec y x) as [->|N].
    + right. exists [], l. split; auto. split; auto. rewrite len_nil. f_equal. lia.
    + destruct (IH (i + 1)) as [(E & Ni)|(a & c & -> & Na & E)].
      * left. split; auto. cbn. tauto.
      * right. exists (y :: a), c. split; auto. split; [cbn; tauto|]. rewrite E, len_cons. f_equal. lia.
Qed.

Lemma without1_at x a c : ~ In x a -> without1 x (a ++ x :: c) = a ++ c.
Proof. induction a as [|y a IH]; cbn; intros N. - destruct (Nat.eq_dec x x); congruence. - destruct (Nat.eq_dec y x); [tauto|]. rewrite IH; tauto. Qed.
Lemma without1_none x l : ~ In x l -> without1 x l = l.
Proof. induction l as [|y l IH]; cbn; intros N; auto. destruct (Nat.eq_dec y x); [tauto|]. rewrite IH; tauto. Qed.
Lemma without_all_filter x l : without_all x l = filter (fun y => negb (Nat.eqb y x)) l.
Proof. induction l as [|y l IH]; cbn; auto. destruct (Nat.eq_dec y x), (Nat.eqb_spec y x); try congruence; cbn; congruence. Qed.
Lemma without_all_at x a c : ~ In x a -> without_all x (a ++ x :: c) = a ++ without_all x c.
Proof. induction a as [|y a IH]; cbn; intros N. - destruct (Nat.eq_dec x x); congruence. - destruct (Nat.eq_dec y x); [tauto|]. rewrite IH; tauto. Qed.
Lemma without_all_none x l : ~ In x l -> without_all x l = l.
Proof. induction l as [|y l IH]; cbn; intros N; auto. destruct (Nat.eq_dec y x); [tauto|]. rewrite IH; tauto. Qed.

(* the references while elements are removed *)
Definition releasing (h0 : objs) (r : nat -> Z) (l0 : list nat) (h : objs) (l : list nat) : Prop :=
  counts h (fun y => r y - occ y l0 + occ y l) /\ length h = length h0.

Lemma releasing_init h r l : counts h r -> releasing h r l h l.
Proof. intros C. split; auto. eapply counts_ext; [|exact C]. intros y. cbn. lia. Qed.

Lemma releasing_drop h0 r l0 h a x c : (forall y, occ y l0 <= r y) -> releasing h0 r l0 h (a ++ x :: c) -> exists h', obj_unref h x = Ok h' /\ releasing h0 r l0 h' (a ++ c).
Proof.
  intros Hr (C & L). destruct (unref_spec h _ x C) as (h' & E & C' & L').
  - rewrite occ_app, occ_cons. destruct (Nat.eq_dec x x); [|congruence]. specialize (Hr x). pose proof (occ_nonneg x a). pose proof (occ_nonneg x c). lia.
  - exists h'. split; auto. split; [|congruence]. eapply counts_ext; [|exact C']. intros y. unfold add1. rewrite !occ_app, occ_cons. destruct (Nat.eq_dec x y); lia.
Qed.

Lemma oremove_impl_spec h0 r l0 h a x c junk n : (forall y, occ y l0 <= r y) -> releasing h0 r l0 h (a ++ x :: c) -> fits (a ++ x :: c) -> n = len (a ++ x :: c) ->
  exists h', remove_impl u64 obj_unref h (map CPtr (a ++ x :: c) ++ CNull :: junk) (len a) n = Ok (h', map CPtr (a ++ c) ++ [CNull]) /\ releasing h0 r l0 h' (a ++ c).
Proof.
  intros Hr R L ->. destruct (releasing_drop _ _ _ _ _ _ _ Hr R) as (h' & E & R'). exists h'. split; auto. apply remove_impl_spec; auto.
  intros z Hz. apply u64_id. unfold in_u64, fits in *. lia.
Qed.

Lemma oremove_spec h r v l x all : counts h r -> holds v l -> fits l -> (forall y, occ y l <= r y) ->
  exists h' v', objv_remove h v (Some x) all = Ok (h', v') /\ holds v' (if (all : bool) then without_all x l else without1 x l) /\
    releasing h r l h' (if all then without_all x l else without1 x l).
Proof.
  intros C H L Hr. pose proof (releasing_init h r l C) as R0. destruct v as [b|].
  2:{ cbn in H. subst. exists h, None. split; auto. split; [destruct all; reflexivity|destruct all; auto]. }
  destruct H as (junk & ->). cbn [objv_remove objv_find]. destruct (ofind_spec x junk l 0) as [(E & N)|(a & c & -> & N & E)]; rewrite E; cbn [bind].
  - replace (-1 >=? 0) with false by lia. eexists _, _. split; [reflexivity|]. rewrite without_all_none, without1_none by auto. destruct all; split; auto; exists junk; auto.
  - pose proof (len_nonneg a). pose proof (len_nonneg c). rewrite Z.add_0_l. replace (len a >=? 0) with true by lia. rewrite (fits_length _ (a ++ x :: c)); [|exists junk; auto|auto]. cbn [bind].
    destruct (oremove_impl_spec h r _ h a x c junk _ Hr R0 L eq_refl) as (h1 & E1 & R1). rewrite E1. cbn [bind]. unfold fits in L. rewrite len_app, len_cons in L.
    destruct all.
    + rewrite len_app, len_cons. rewrite (u64_id (_ - 1)) by (unfold in_u64; lia). rewrite u64_id by (unfold in_u64; lia).
      replace (len a + (1 + len c) - 1 - len a) with (len c) by lia.
      destruct (remove_rest_spec (releasing h r (a ++ x :: c)) u64 (fun _ => is_obj x) obj_unref (fun y => Nat.eqb y x) (len (a ++ x :: c))) with
        (fuel := length (map CPtr (a ++ c) ++ [CNull])) (w := h1) (pre := a) (seg := c) (post := @nil nat) (junk := @nil cell) as (h2 & junk' & E2 & R2).
      * intros z Hz. apply u64_id. unfold in_u64. rewrite len_app, len_cons in Hz. lia.
      * reflexivity.
      * intros w a' y c' R _. eapply releasing_drop; eauto.
      * rewrite app_length, !map_length, app_length. cbn [length]. lia.
      * rewrite app_nil_r. auto.
      * contradiction.
      * rewrite app_nil_r, !len_app, len_cons. lia.
      * rewrite !app_nil_r in E2. replace (len a + (1 + len c) - 1) with (len (a ++ c)) by (rewrite len_app; lia).
        rewrite E2. cbn [bind]. rewrite app_nil_r in R2. rewrite without_all_at, without_all_filter by auto. eexists _, _. split; [reflexivity|]. split; [exists junk'; auto|auto].
    + rewrite without1_at by auto. eexists _, _. split; [reflexivity|]. split; [exists []; auto|auto].
Qed.

Lemma remove_at_spec h r v l pos : counts h r -> holds v l -> fits l -> (forall y, occ y l <= r y) -> 0 <= pos < 2^64 ->
  exists h' v', objv_remove_at h v pos = Ok (h', v') /\ holds v' (without_nth (Z.to_nat pos) l) /\ releasing h r l h' (without_nth (Z.to_nat pos) l).
Proof.
  intros C H L Hr Hp. pose proof (releasing_init h r l C) as R0. destruct v as [b|].
  2:{ cbn in H. subst. exists h, None. unfold without_nth. rewrite firstn_nil, skipn_nil. split; auto. split; [reflexivity|auto]. }
  unfold objv_remove_at. rewrite (fits_length _ l H L). cbn [bind]. destruct H as (junk & ->). destruct (Z.ltb_spec pos (len l)) as [P|P].
  - destruct (nth_error l (Z.to_nat pos)) as [x|] eqn:Ex; [|apply nth_error_None in Ex; unfold len in *; lia].
    destruct (nth_error_split l _ Ex) as (a & c & -> & Hl1). assert (pos = len a) as -> by (unfold len; lia).
    destruct (oremove_impl_spec h r _ h a x c junk _ Hr R0 L eq_refl) as (h1 & E1 & R1). rewrite E1. cbn [bind].
    assert (without_nth (Z.to_nat (len a)) (a ++ x :: c) = a ++ c) as ->.
    { unfold without_nth. rewrite <- Hl1. rewrite firstn_app, firstn_all, Nat.sub_diag, skipn_app, skipn_all2 by lia. replace (S (length a) - length a)%nat with 1%nat by lia. cbn [firstn skipn app]. rewrite app_nil_r. auto. }
    eexists _, _. split; [reflexivity|]. split; [exists []; auto|auto].
  - assert (without_nth (Z.to_nat pos) l = l) as ->.
    { unfold without_nth. rewrite firstn_all2, skipn_all2 by (unfold len in *; lia). apply app_nil_r. }
    eexists _, _. split; [reflexivity|]. split; [exists junk; auto|auto].
Qed.

(* ---------------- programs ---------------- *)
Lemma total_app ls l x : total (ls ++ [Some l]) x = total ls x + occ x l.
Proof. unfold total. induction ls as [|[a|] ls IH]; cbn [app fold_right] in *; lia. Qed.

Lemma total_upd ls i l q x : nth_error ls i = Some (Some l) ->
  total (upd ls i q) x = total ls x - occ x l + match q with Some q => occ x q | None => 0 end.
Proof.
  revert i. induction ls as [|a ls IH]; intros [|i] E; try discriminate; cbn [nth_error upd] in *.
  - injection E as ->. cbn [total fold_right]. fold (total ls x). destruct q; lia.
  - cbn [total fold_right]. fold (total (upd ls i q) x). fold (total ls x). specialize (IH i E). destruct a; lia.
Qed.

Lemma total_nonneg ls x : 0 <= total ls x.
Proof. unfold total. induction ls as [|[a|] ls IH]; cbn [fold_right]; try lia. pose proof (occ_nonneg x a). lia. Qed.

Lemma total_ge ls i l x : nth_error ls i = Some (Some l) -> occ x l <= total ls x.
Proof. intros E. pose proof (total_upd ls i l None x E) as T. cbv iota in T. pose proof (total_nonneg (upd ls i None) x). lia. Qed.

Definition arrayp (v : option vec) (l : option (list nat)) : Prop :=
  match v, l with Some v, Some l => holds v l /\ fits l | None, None => True | _, _ => False end.

Lemma Forall2_nth {A B} (P : A -> B -> Prop) a b i y : Forall2 P a b -> nth_error b i = Some y -> exists x, nth_error a i = Some x /\ P x y.
Proof. intros F. revert i. induction F; intros [|i] E; cbn in *; try discriminate; eauto. injection E as ->. eauto. Qed.
Lemma Forall2_upd {A B} (P : A -> B -> Prop) a b i x y : Forall2 P a b -> P x y -> Forall2 P (upd a i x) (upd b i y).
Proof. intros F H. revert i. induction F; intros [|i]; cbn; constructor; auto. Qed.

Lemma arr_ok vs ls i : Forall2 arrayp vs ls -> live ls i -> exists v l, arr vs i = Ok v /\ nth_error ls i = Some (Some l) /\ elems ls i = l /\ holds v l /\ fits l.
Proof.
  intros F (l & E). destruct (Forall2_nth _ _ _ _ _ F E) as ([v|] & Ev & P); [|contradiction]. exists v, l. unfold arr, look, elems. rewrite Ev, E. destruct P. auto.
Qed.

Lemma upd_fits ls i l q : nth_error ls i = Some (Some l) -> Forall (fun l => match l with Some l => fits l | None => True end) (upd ls i (Some q)) -> fits q.
Proof.
  intros E F. rewrite Forall_forall in F. apply (F (Some q)). apply (nth_error_In _ i). apply nth_error_upd_eq. apply nth_error_Some. congruence.
Qed.

Lemma step_ok s w c : agrees s w -> correct w c -> exists s', run1 s c = Ok s' /\ agrees s' (after w c).
Proof.
  destruct s as (h, vs), w as (ls, o). intros (C & O & F) (V & FT). cbn [fst snd] in *. change (Forall2 arrayp vs ls) in F.
  assert (forall h' vs' ls' o', counts h' (fun x => total ls' x + o' x) -> (forall x, 0 <= o' x) -> Forall2 arrayp vs' ls' -> agrees (h', vs') (ls', o')) as MK by (intros; split; [|split]; auto).
  destruct c as [args|i|i x|i x pos|i j|i x all|i pos|i|x|x]; cbn [run1 after] in *.
  - apply Forall_app in FT. destruct FT as (_ & FT). inversion FT as [|? ? FA _]; subst. destruct (new_spec h _ args C V FA) as (h' & v & E & Hv & C' & L'). rewrite E. cbn [bind].
    eexists. split; [reflexivity|]. apply MK; auto; [|apply Forall2_app; auto; repeat constructor; auto]. eapply counts_ext; [|exact C']. intros y. unfold plus. rewrite total_app. lia.
  - destruct (arr_ok _ _ _ F V) as (v & l & E & El & Ee & Hv & Fl). rewrite E, Ee. cbn [bind].
    destruct (copy_spec h _ v l C Hv) as (h' & v' & E' & Hv' & C' & L'); auto. { intros y. specialize (O y). pose proof (total_ge ls i l y El). lia. }
    rewrite E'. cbn [bind]. eexists. split; [reflexivity|]. apply MK; auto; [|apply Forall2_app; auto; repeat constructor; auto]. eapply counts_ext; [|exact C']. intros y. unfold plus. rewrite total_app. lia.
  - destruct V as (V & K). destruct (arr_ok _ _ _ F V) as (v & l & E & El & Ee & Hv & Fl). rewrite E, Ee in *. cbn [bind].
    destruct (add_spec h _ v l x C Hv Fl K) as (h' & v' & E' & Hv' & C' & L'). rewrite E'. cbn [bind]. eexists. split; [reflexivity|]. apply MK; auto.
    + eapply counts_ext; [|exact C']. intros y. unfold add1. rewrite (total_upd ls i l) by auto. rewrite occ_app, occ_cons, occ_nil. destruct (Nat.eq_dec x y); lia.
    + apply Forall2_upd; auto. split; auto. exact (upd_fits ls i l _ El FT).
  - destruct V as (V & K & Hp). destruct (arr_ok _ _ _ F V) as (v & l & E & El & Ee & Hv & Fl). rewrite E, Ee in *. cbn [bind].
    destruct (insert_spec h _ v l x pos C Hv Fl K Hp) as (h' & v' & E' & Hv' & C' & L'). rewrite E'. cbn [bind]. eexists. split; [reflexivity|]. apply MK; auto.
    + eapply counts_ext; [|exact C']. intros y. unfold add1. rewrite (total_upd ls i l) by auto. unfold inserted. assert (occ y l = occ y (firstn (Z.to_nat pos) l) + occ y (skipn (Z.to_nat pos) l)) by (rewrite <- occ_app, firstn_skipn; auto). rewrite !occ_app, occ_cons. destruct (Nat.eq_dec x y); lia.
    + apply Forall2_upd; auto. split; auto. exact (upd_fits ls i l _ El FT).
  - destruct V as (V & W & Nij). destruct (arr_ok _ _ _ F V) as (v & l & E & El & Ee & Hv & Fl). destruct (arr_ok _ _ _ F W) as (v2 & q & E2 & El2 & Ee2 & Hv2 & Fl2). rewrite E, E2, Ee, Ee2 in *. cbn [bind].
    destruct (append_spec h _ (Z.of_nat i) v l (Z.of_nat j) v2 q C Hv Hv2) as (h' & v' & E' & Hv' & C' & L').
    { exact (upd_fits ls i l _ El FT). }
    { intros y. specialize (O y). pose proof (total_ge ls j q y El2). lia. }
    { lia. }
    rewrite E'. cbn [bind]. eexists. split; [reflexivity|]. apply MK; auto.
    + eapply counts_ext; [|exact C']. intros y. unfold plus. rewrite (total_upd ls i l) by auto. rewrite occ_app. lia.
    + apply Forall2_upd; auto. split; auto. exact (upd_fits ls i l _ El FT).
  - destruct (arr_ok _ _ _ F V) as (v & l & E & El & Ee & Hv & Fl). rewrite E, Ee in *. cbn [bind].
    destruct (oremove_spec h _ v l x all C Hv Fl) as (h' & v' & E' & Hv' & C' & L'). { intros y. specialize (O y). pose proof (total_ge ls i l y El). lia. }
    rewrite E'. cbn [bind]. eexists. split; [reflexivity|]. apply MK; auto.
    + eapply counts_ext; [|exact C']. intros y. cbn beta. rewrite (total_upd ls i l) by auto. lia.
    + apply Forall2_upd; auto. split; auto. exact (upd_fits ls i l _ El FT).
  - destruct V as (V & Hp). destruct (arr_ok _ _ _ F V) as (v & l & E & El & Ee & Hv & Fl). rewrite E, Ee in *. cbn [bind].
    destruct (remove_at_spec h _ v l pos C Hv Fl) as (h' & v' & E' & Hv' & C' & L'); auto. { intros y. specialize (O y). pose proof (total_ge ls i l y El). lia. }
    rewrite E'. cbn [bind]. eexists. split; [reflexivity|]. apply MK; auto.
    + eapply counts_ext; [|exact C']. intros y. cbn beta. rewrite (total_upd ls i l) by auto. lia.
    + apply Forall2_upd; auto. split; auto. exact (upd_fits ls i l _ El FT).
  - destruct (arr_ok _ _ _ F V) as (v & l & E & El & Ee & Hv & Fl). rewrite E. cbn [bind].
    destruct (free_spec h _ v l C Hv) as (h' & E' & C' & L'). { intros y. specialize (O y). pose proof (total_ge ls i l y El). lia. }
    rewrite E'. cbn [bind]. eexists. split; [reflexivity|]. apply MK; auto; [|apply Forall2_upd; auto; exact I]. eapply counts_ext; [|exact C']. intros y. unfold minus. rewrite (total_upd ls i l) by auto. lia.
  - destruct (ref_spec h _ x C V) as (h' & E' & C' & L'). rewrite E'. cbn [bind]. eexists. split; [reflexivity|]. apply MK; auto.
    + eapply counts_ext; [|exact C']. intros y. unfold add1. destruct (Nat.eq_dec x y); lia.
    + intros y. unfold add1. specialize (O y). destruct (Nat.eq_dec x y); lia.
  - destruct (unref_spec h _ x C) as (h' & E' & C' & L'). { pose proof (total_nonneg ls x). lia. } rewrite E'. cbn [bind]. eexists. split; [reflexivity|]. apply MK; auto.
    + eapply counts_ext; [|exact C']. intros y. unfold add1. destruct (Nat.eq_dec x y); lia.
    + intros y. unfold add1. specialize (O y). destruct (Nat.eq_dec x y); subst; lia.
Qed.

Lemma run_ok p : forall s w, agrees s w -> all_correct w p -> exists s', run s p = Ok s' /\ agrees s' (result w p).
Proof.
  induction p as [|c p IH]; intros s w A V; cbn [run result all_correct] in *; eauto. destruct V as (V1 & V2).
  destruct (step_ok s w c A V1) as (s1 & E & A1). rewrite E. cbn [bind]. eauto.
Qed.

(* ---------------- queries ---------------- *)
Lemma oequal_loop_spec l1 j1 l2 j2 : len l1 < 2^60 -> forall fuel n, (Z.to_nat (len l1 - n) < fuel)%nat -> 0 <= n <= len l1 -> n <= len l2 ->
  firstn (Z.to_nat n) l1 = firstn (Z.to_nat n) l2 ->
  exists k, oequal_loop fuel (map CPtr l1 ++ CNull :: j1) (map CPtr l2 ++ CNull :: j2) n = Ok k /\ 0 <= k <= len l1 /\ k <= len l2 /\ firstn (Z.to_nat k) l1 = firstn (Z.to_nat k) l2 /\
    (k < len l1 -> k < len l2 -> nth_error l1 (Z.to_nat k) <> nth_error l2 (Z.to_nat k)).
Proof.
  intros L1. induction fuel; intros n Hf H1 H2 HF; [lia|]. cbn [oequal_loop]. destruct (Z.eq_dec n (len l1)) as [->|N1].
  - rewrite at_end. cbn [bind]. eexists. split; [reflexivity|]. repeat split; auto; lia.
  - destruct (nth_error l1 (Z.to_nat n)) as [x|] eqn:E1. 2:{ apply nth_error_None in E1. unfold len in *. lia. }
    pose proof (at_in l1 j1 _ x E1) as A1. rewrite Z2Nat.id in A1 by lia. rewrite A1. cbn [bind]. destruct (Z.eq_dec n (len l2)) as [->|N2].
    + rewrite at_end. cbn [bind]. eexists. split; [reflexivity|]. repeat split; auto; lia.
    + destruct (nth_error l2 (Z.to_nat n)) as [y|] eqn:E2. 2:{ apply nth_error_None in E2. unfold len in *. lia. }
      pose proof (at_in l2 j2 _ y E2) as A2. rewrite Z2Nat.id in A2 by lia. rewrite A2. cbn [bind]. destruct (Nat.eqb_spec x y) as [->|Nxy].
      * rewrite u64_id by (unfold in_u64; lia). apply IHfuel; try lia. replace (Z.to_nat (n + 1)) with (S (Z.to_nat n)) by lia.
        destruct (nth_error_split _ _ E1) as (a1 & c1 & -> & La1). destruct (nth_error_split _ _ E2) as (a2 & c2 & -> & La2).
        assert (forall (a c : list nat) z k, length a = k -> firstn k (a ++ z :: c) = a /\ firstn (S k) (a ++ z :: c) = a ++ [z]) as FS.
        { clear. induction a as [|q a IH]; intros c z k <-; cbn; auto. destruct (IH c z _ eq_refl) as (Q1 & Q2). cbn in *. split; f_equal; auto. }
        destruct (FS a1 c1 y _ La1) as (P1 & ->). destruct (FS a2 c2 y _ La2) as (P2 & ->). rewrite P1, P2 in HF. congruence.
      * eexists. split; [reflexivity|]. repeat split; auto; try lia. intros _ _. congruence.
Qed.

Lemma at_any l junk k : 0 <= k <= len l -> at_ (map CPtr l ++ CNull :: junk) k = Ok (nth_error l (Z.to_nat k)).
Proof.
  intros H. destruct (Z.eq_dec k (len l)) as [->|N].
  - rewrite at_end. f_equal. symmetry. apply nth_error_None. unfold len. lia.
  - destruct (nth_error l (Z.to_nat k)) as [x|] eqn:E; [|apply nth_error_None in E; unfold len in *; lia]. rewrite <- (Z2Nat.id k) by lia. apply at_in. auto.
Qed.

Lemma oequal_spec a1 v1 a2 v2 l1 l2 : holds v1 l1 -> holds v2 l2 -> fits l1 -> (a1 = a2 -> v1 = v2) ->
  exists r, objv_equal a1 v1 a2 v2 = Ok r /\ (r = true <-> l1 = l2).
Proof.
  intros H1 H2 L Ad. unfold fits in L. pose proof (len_nonneg l1). pose proof (len_nonneg l2).
  destruct v1 as [b1|], v2 as [b2|]; cbn [holds] in *; cbn [objv_equal].
  - destruct H1 as (j1 & ->). destruct H2 as (j2 & ->). destruct (Z.eqb_spec a1 a2) as [E|N].
    + exists true. split; auto. split; auto. intros _. specialize (Ad E). injection Ad as Ad. clear - Ad. revert l2 Ad.
      induction l1 as [|x l IH]; intros [|y l2]; cbn; try discriminate; auto. intros E. injection E as <- E. f_equal. auto.
    + destruct (oequal_loop_spec l1 j1 l2 j2 L (S (length (map CPtr l1 ++ CNull :: j1))) 0) as (k & E & K1 & K2 & KF & KN); try lia; auto.
      { rewrite app_length, map_length. unfold len. lia. }
      rewrite E. cbn [bind]. rewrite at_any by lia. cbn [bind]. rewrite at_any by lia. destruct (Z.lt_trichotomy (len l1) (len l2)) as [LL|[LL|LL]].
      * destruct (nth_error l1 (Z.to_nat k)) eqn:E1; cbn [bind].
        -- exists false. split; auto. split; [discriminate|]. intros ->. lia.
        -- destruct (nth_error l2 (Z.to_nat k)) eqn:E2; [exists false; split; auto; split; [discriminate|]; intros ->; lia|].
           apply nth_error_None in E1, E2. unfold len in *. lia.
      * destruct (nth_error l1 (Z.to_nat k)) eqn:E1; cbn [bind].
        -- assert (k < len l1). { assert (Z.to_nat k < length l1)%nat by (apply nth_error_Some; congruence). unfold len. lia. }
           exists false. split; auto. split; [discriminate|]. intros ->. exfalso. apply KN; auto; lia.
        -- apply nth_error_None in E1. rewrite (proj2 (nth_error_None l2 _)) by (unfold len in *; lia). exists true. split; auto. split; auto. intros _.
           rewrite !firstn_all2 in KF by (unfold len in *; lia). auto.
      * destruct (nth_error l1 (Z.to_nat k)) eqn:E1; cbn [bind].
        -- exists false. split; auto. split; [discriminate|]. intros ->. lia.
        -- apply nth_error_None in E1. unfold len in *. lia.
  - destruct H1 as (j1 & ->). subst. rewrite at_any by lia. cbn [bind]. eexists. split; [reflexivity|]. destruct l1; cbn; split; auto; discriminate.
  - destruct H2 as (j2 & ->). subst. rewrite at_any by lia. cbn [bind]. eexists. split; [reflexivity|]. destruct l2; cbn; split; auto; discriminate.
  - subst. exists true. split; auto. tauto.
Qed.

Lemma olast_spec junk : forall l x, olast_loop (map CPtr (l ++ [x]) ++ CNull :: junk) = Ok (Some x).
Proof.
  induction l as [|y l IH]; intros x; [reflexivity|]. specialize (IH x). cbn [app map olast_loop]. change (at_ (map CPtr (l ++ [x]) ++ CNull :: junk) 0) with (at_ (map CPtr (l ++ [x]) ++ CNull :: junk) (Z.of_nat 0)).
  assert (exists z, nth_error (l ++ [x]) 0 = Some z) as (z & Ez) by (destruct l; cbn; eauto). rewrite (at_in _ junk _ z Ez). cbn [bind]. auto.
Qed.

Lemma ofind_last_spec v l x : holds v l -> fits l ->
  (objv_find_last v (Some x) = Ok (-1) /\ ~ In x l) \/ (exists a c, l = a ++ x :: c /\ ~ In x c /\ objv_find_last v (Some x) = Ok (len a)).
Proof.
  intros H L. destruct v as [b|]; [|left; cbn in H; subst; auto]. unfold objv_find_last. rewrite (fits_length _ l H L). cbn [bind]. destruct H as (junk & ->).
  destruct (find_last_spec (is_obj x) (fun y => Nat.eqb y x) [] l [] junk) as [(E & N)|(a & y & c & -> & Py & N & E)]; auto; rewrite app_nil_r in E; cbn [app] in E; change (len []) with 0 in E.
  - left. replace (Z.to_nat (len l)) with (length l) by (unfold len; lia). split; auto. intros Hx. specialize (N x Hx). rewrite Nat.eqb_refl in N. discriminate.
  - right. destruct (Nat.eqb_spec y x) as [->|]; [|discriminate]. exists a, c. split; auto. split; [intros Hx; specialize (N x Hx); rewrite Nat.eqb_refl in N; discriminate|].
    replace (Z.to_nat (len (a ++ x :: c))) with (length (a ++ x :: c)) by (unfold len; lia). auto.
Qed.
