(* Lemmas about the int array model *)
From Verif Require Import Base IntArrayModel IntArraySpec.
From Coq Require Import ZifyBool Permutation Sorted.
Ltac Zify.zify_post_hook ::= Z.div_mod_to_equations.

Lemma firstn_app_len {A} (l r : list A) n : n = length l -> firstn n (l ++ r) = l.
Proof. intros ->. rewrite firstn_app, Nat.sub_diag, firstn_all. cbn. apply app_nil_r. Qed.
Lemma skipn_app_len {A} (l r : list A) n : n = length l -> skipn n (l ++ r) = r.
Proof. intros ->. rewrite skipn_app, Nat.sub_diag, skipn_all. reflexivity. Qed.
Lemma split_at {A} (l : list A) n : 0 <= n <= len l -> exists x y, l = x ++ y /\ len x = n.
Proof.
  intros H. exists (firstn (Z.to_nat n) l), (skipn (Z.to_nat n) l). rewrite firstn_skipn. split; auto.
  unfold len in *. rewrite firstn_length. lia.
Qed.
Lemma split_mid {A} (l : list A) n : 0 <= n < len l -> exists x c y, l = x ++ c :: y /\ len x = n.
Proof.
  intros H. destruct (split_at l n ltac:(lia)) as (x & y & -> & L). rewrite len_app in H.
  destruct y as [|c y]; [change (len (@nil A)) with 0 in H; lia|]. exists x, c, y. auto.
Qed.
Lemma len0 {A} (l : list A) : len l = 0 -> l = [].
Proof. destruct l; [auto|]. rewrite len_cons. pose proof (len_nonneg l). lia. Qed.

Lemma move_spec b dst src n x m y : b = x ++ m ++ y -> len x = src -> len m = n -> 0 <= dst -> dst + n <= len b ->
  move b dst src n = Ok (firstn (Z.to_nat dst) b ++ m ++ skipn (Z.to_nat (dst + n)) b).
Proof.
  intros -> <- <- H0 H1. unfold move. rewrite !len_app in *. pose proof (len_nonneg x). pose proof (len_nonneg m). pose proof (len_nonneg y).
  replace ((0 <=? len m) && (0 <=? len x) && (len x + len m <=? len x + (len m + len y))) with true by lia.
  replace ((0 <=? dst) && (dst + len m <=? len x + (len m + len y))) with true by lia.
  do 3 f_equal. unfold slice. rewrite skipn_app_len by (unfold len; lia). apply firstn_app_len. unfold len. lia.
Qed.

Lemma copy_spec b dst v n x m y : b = x ++ m ++ y -> len x = dst -> len m = n -> n <= len v ->
  copy b dst (Some v) n = Ok (x ++ map Some (firstn (Z.to_nat n) v) ++ y).
Proof.
  intros -> <- <- H. unfold copy. rewrite !len_app. pose proof (len_nonneg x). pose proof (len_nonneg m). pose proof (len_nonneg y).
  replace (len m <=? len v) with true by lia. replace ((0 <=? len x) && (len x + len m <=? len x + (len m + len y))) with true by lia.
  rewrite firstn_app_len by (unfold len; lia).
  assert (skipn (Z.to_nat (len x + len m)) (x ++ m ++ y) = y) as ->; [|reflexivity].
  rewrite app_assoc. apply skipn_app_len. rewrite app_length. unfold len. lia.
Qed.

(* an array in the middle of a call: l followed by at least n spare cells *)
Lemma expand_spec grow a l n : (forall k, k <= grow k) -> shows a l -> 0 <= n -> len l + n < 2^32 ->
  exists spare, maybe_expand grow a n = Ok (set_bc a (l ++ spare) (len l)) /\ n <= len spare.
Proof.
  intros G (C & spare & B) H0 H1. unfold maybe_expand. rewrite C. replace (2^32 - 1 - len l <? n) with false by lia.
  rewrite B, len_app. pose proof (len_nonneg spare). destruct (len l + n >? len l + len spare) eqn:E.
  - eexists. rewrite <- app_assoc. split; [reflexivity|]. rewrite len_app. specialize (G (len l + n)).
    unfold len at 2. rewrite repeat_length. lia.
  - exists spare. split; [|lia]. f_equal. destruct a; cbn in *. subst. reflexivity.
Qed.

Lemma shows_bc a l spare : shows (set_bc a (l ++ spare) (len l)) l.
Proof. split; [reflexivity|]. exists spare. reflexivity. Qed.

Lemma shows_intro a l spare : count a = len l -> blk a = l ++ spare -> shows a l.
Proof. intros C B. split; eauto. Qed.

Lemma set_bc2 a b n c m : set_bc (set_bc a b n) c m = set_bc a c m.
Proof. reflexivity. Qed.

Lemma firstn_len {A} (l : list A) : firstn (Z.to_nat (len l)) l = l.
Proof. unfold len. rewrite Nat2Z.id. apply firstn_all. Qed.

Lemma len_map {A B} (f : A -> B) l : len (map f l) = len l.
Proof. unfold len. rewrite map_length. reflexivity. Qed.

Lemma g_append_spec grow a l v : (forall k, k <= grow k) -> shows a l -> len l + len v < 2^32 ->
  exists a', g_append_vals grow a (Some v) (len v) = Ok a' /\ shows a' (l ++ map Some v) /\ crit a' = crit a /\ refs a' = refs a.
Proof.
  intros G Sh L. unfold g_append_vals. destruct (len v =? 0) eqn:E.
  - exists a. rewrite (len0 v) by lia. cbn. rewrite app_nil_r. auto.
  - destruct (expand_spec grow a l (len v) G Sh (len_nonneg v) L) as (spare & -> & Hs). cbn [bind].
    destruct (split_at spare (len v)) as (m & y & -> & Lm); [pose proof (len_nonneg v); lia|].
    cbn [set_bc blk count]. rewrite (copy_spec _ _ v (len v) l m y) by (auto; lia). cbn [bind].
    rewrite firstn_len, app_assoc. eexists. split; [reflexivity|].
    split; [|auto]. apply (shows_intro _ _ y); cbn; [rewrite len_app, len_map; lia|rewrite <- app_assoc; auto].
Qed.

Lemma g_prepend_spec grow a l v : (forall k, k <= grow k) -> shows a l -> len l + len v < 2^32 ->
  exists a', g_prepend_vals grow a (Some v) (len v) = Ok a' /\ shows a' (map Some v ++ l) /\ crit a' = crit a /\ refs a' = refs a.
Proof.
  intros G Sh L. unfold g_prepend_vals. pose proof (len_nonneg v). pose proof (len_nonneg l). destruct (len v =? 0) eqn:E.
  - exists a. rewrite (len0 v) by lia. auto.
  - destruct (expand_spec grow a l (len v) G Sh (len_nonneg v) L) as (spare & -> & Hs). cbn [bind set_bc blk count].
    rewrite (move_spec _ (len v) 0 (len l) [] l spare) by (rewrite ?len_app; auto; lia). cbn [bind].
    rewrite (copy_spec _ 0 v (len v) [] (firstn (Z.to_nat (len v)) (l ++ spare)) (l ++ skipn (Z.to_nat (len v + len l)) (l ++ spare))); auto; try lia.
    + cbn [bind app]. rewrite firstn_len, app_assoc. eexists. split; [reflexivity|].
      split; [|auto]. eapply shows_intro; cbn; [rewrite len_app, len_map; lia|reflexivity].
    + unfold len in *. rewrite firstn_length, app_length. lia.
Qed.

Lemma g_insert_spec grow a x y v : (forall k, k <= grow k) -> shows a (x ++ y) -> y <> [] -> v <> [] -> len x + len y + len v < 2^32 ->
  exists a', g_insert_vals grow a (len x) (Some v) (len v) = Ok a' /\ shows a' (x ++ map Some v ++ y) /\ crit a' = crit a /\ refs a' = refs a.
Proof.
  intros G Sh Hy Hv L. unfold g_insert_vals. pose proof (len_nonneg v). pose proof (len_nonneg x). pose proof Sh as (C & _). rewrite len_app in C.
  assert (0 < len y) by (destruct y; [congruence|rewrite len_cons; pose proof (len_nonneg y); lia]).
  assert (0 < len v) by (destruct v; [congruence|rewrite len_cons; pose proof (len_nonneg v); lia]).
  replace (len v =? 0) with false by lia. replace (len x >=? count a) with false by lia.
  destruct (expand_spec grow a (x ++ y) (len v) G Sh (len_nonneg v)) as (spare & -> & Hs); [rewrite len_app; lia|]. cbn [bind set_bc blk count].
  rewrite (move_spec _ (len v + len x) (len x) (len (x ++ y) - len x) x y spare) by (rewrite ?app_assoc, ?len_app; auto; lia). cbn [bind].
  set (b := (x ++ y) ++ spare).
  assert (firstn (Z.to_nat (len v + len x)) b = x ++ firstn (Z.to_nat (len v)) (y ++ spare)) as F.
  { unfold b. rewrite <- app_assoc. rewrite firstn_app. rewrite firstn_all2 by (unfold len; lia). f_equal. f_equal. unfold len. lia. }
  rewrite F, <- app_assoc.
  rewrite (copy_spec _ (len x) v (len v) x (firstn (Z.to_nat (len v)) (y ++ spare)) (y ++ skipn (Z.to_nat (len v + len x + (len (x ++ y) - len x))) b)); auto; try lia.
  - cbn [bind]. rewrite firstn_len. eexists. split; [reflexivity|].
    replace (len (x ++ y) + len v) with (len (x ++ map Some v ++ y)) by (rewrite !len_app, len_map; lia).
    unfold set_bc. cbn [refs crit]. split; [|auto]. split; [reflexivity|]. eexists. cbn [blk]. rewrite <- !app_assoc. reflexivity.
  - unfold len in *. rewrite firstn_length, app_length. lia.
Qed.

Lemma g_remove_range_spec a x m y : shows a (x ++ m ++ y) -> len x + len m < 2^32 ->
  exists a', g_remove_range a (len x) (len m) = Ok a' /\ shows a' (x ++ y) /\ crit a' = crit a /\ refs a' = refs a.
Proof.
  intros (C & spare & B) L. unfold g_remove_range. rewrite !len_app in C. pose proof (len_nonneg x). pose proof (len_nonneg m). pose proof (len_nonneg y).
  replace (negb (len x <=? count a) || negb (len x <=? 2 ^ 32 - 1 - len m) || negb (len x + len m <=? count a)) with false by lia.
  destruct (len x + len m =? count a) eqn:E.
  - rewrite (len0 y) in * by lia. cbn [bind]. eexists. split; [reflexivity|]. rewrite !app_nil_r in *. split; [|auto].
    split; cbn; [lia|]. exists (m ++ spare). rewrite B, <- app_assoc. reflexivity.
  - rewrite (move_spec (blk a) (len x) (len x + len m) (count a - (len x + len m)) (x ++ m) y spare); rewrite ?len_app; auto; try lia.
    + cbn [bind]. eexists. split; [reflexivity|]. split; [|auto]. split; cbn [count blk set_bc]; [rewrite len_app; lia|].
      rewrite B. eexists. rewrite <- (app_assoc x), firstn_app_len by (unfold len; lia). exact (app_assoc x y _).
    + rewrite B, <- !app_assoc. reflexivity.
    + rewrite B, !len_app. pose proof (len_nonneg spare). lia.
Qed.

Lemma g_set_size_spec grow a l n : (forall k, k <= grow k) -> shows a l -> 0 <= n < 2^32 -> len l < 2^32 ->
  exists a' l', g_set_size grow a n = Ok a' /\ shows a' l' /\ crit a' = crit a /\ refs a' = refs a /\
     (n <= len l -> exists y, l = l' ++ y /\ len l' = n) /\ (len l <= n -> exists gap, len gap = n - len l /\ l' = l ++ gap).
Proof.
  intros G Sh Hn Hl. pose proof Sh as (C & spare & B). unfold g_set_size. rewrite C.
  destruct (n >? len l) eqn:E1.
  - destruct (expand_spec grow a l (n - len l) G Sh) as (sp & -> & Hs); try lia. cbn [bind].
    destruct (split_at sp (n - len l)) as (gap & y & -> & Lg); [lia|].
    exists (set_bc a (l ++ gap ++ y) n), (l ++ gap). split; [reflexivity|].
    split; [split; cbn; [rewrite len_app; lia|exists y; rewrite app_assoc; reflexivity]|]. split; auto. split; auto. split; [lia|]. intros _. exists gap. auto.
  - destruct (n <? len l) eqn:E2.
    + destruct (split_at l n) as (x & m & -> & Lx); [lia|]. rewrite len_app in *. pose proof (len_nonneg m).
      destruct (g_remove_range_spec a x m []) as (a' & E & Sh' & Cr & Rf); [rewrite app_nil_r; auto|lia|].
      replace (n) with (len x) by lia. replace (len x + len m - len x) with (len m) by lia. rewrite E. cbn [bind].
      eexists. exists x. split; [reflexivity|]. rewrite app_nil_r in Sh'. destruct Sh' as (C' & sp' & B').
      split; [split; cbn; [auto|exists sp'; exact B']|]. split; [exact Cr|]. split; [exact Rf|]. split; [intros _; exists m; auto|].
      intros. exists []. change (len (@nil (option Z))) with 0. rewrite app_nil_r. rewrite (len0 m) by lia. rewrite app_nil_r. split; auto. lia.
    + cbn [bind]. exists (set_bc a (blk a) n), l. split; [reflexivity|]. split; [split; cbn; [lia|eauto]|]. split; auto. split; auto.
      split; intros _; [exists []; rewrite app_nil_r; split; [auto|lia]|exists []; rewrite app_nil_r; change (len (@nil (option Z))) with 0; split; [lia|auto]].
Qed.

Lemma g_remove_index_spec a x c y : shows a (x ++ c :: y) ->
  exists a', g_remove_index a (len x) = Ok a' /\ shows a' (x ++ y) /\ crit a' = crit a /\ refs a' = refs a.
Proof.
  intros (C & spare & B). unfold g_remove_index. rewrite len_app, len_cons in C. pose proof (len_nonneg x). pose proof (len_nonneg y).
  replace (negb (len x <? count a)) with false by lia. destruct (len x =? count a - 1) eqn:E.
  - rewrite (len0 y) in * by lia. cbn [bind]. eexists. split; [reflexivity|]. rewrite app_nil_r. split; [|auto].
    split; cbn [count set_bc blk]; [lia|]. exists (c :: spare). rewrite B, <- app_assoc. reflexivity.
  - rewrite (move_spec (blk a) (len x) (len x + 1) (count a - len x - 1) (x ++ [c]) y spare); rewrite ?len_app; auto; try (cbn; lia).
    + cbn [bind]. eexists. split; [reflexivity|]. split; [|auto]. split; cbn [count blk set_bc]; [rewrite len_app; lia|].
      rewrite B. eexists. rewrite <- (app_assoc x), firstn_app_len by (unfold len; lia). exact (app_assoc x y _).
    + rewrite B, <- !app_assoc. reflexivity.
    + rewrite B, !len_app, len_cons. pose proof (len_nonneg spare). lia.
Qed.

Lemma g_remove_fast_spec a x c y : shows a (x ++ c :: y) ->
  exists a' l', g_remove_index_fast a (len x) = Ok a' /\ shows a' l' /\ crit a' = crit a /\ refs a' = refs a /\
     ((y = [] /\ l' = x) \/ exists y' z, y = y' ++ [z] /\ l' = x ++ z :: y').
Proof.
  intros (C & spare & B). unfold g_remove_index_fast. rewrite len_app, len_cons in C. pose proof (len_nonneg x). pose proof (len_nonneg y).
  replace (negb (len x <? count a)) with false by lia. destruct (len x =? count a - 1) eqn:E.
  - rewrite (len0 y) in * by lia. cbn [bind]. eexists. exists x. split; [reflexivity|]. split; [|auto].
    split; cbn [count set_bc blk]; [lia|]. exists (c :: spare). rewrite B, <- app_assoc. reflexivity.
  - destruct y as [|z y _] using rev_ind; [change (len (@nil (option Z))) with 0 in C; lia|]. rewrite len_app in C. change (len [z]) with 1 in C.
    pose proof (len_nonneg y).
    rewrite (move_spec (blk a) (len x) (count a - 1) 1 (x ++ c :: y) [z] spare); rewrite ?len_app, ?len_cons; auto; try lia.
    + cbn [bind]. eexists. exists (x ++ z :: y). split; [reflexivity|]. split; [|eauto 10]. split; cbn [count blk set_bc]; [rewrite len_app, len_cons; lia|].
      rewrite B. exists (z :: spare). rewrite <- !app_assoc, firstn_app_len by (unfold len; lia). f_equal. cbn [app]. f_equal.
      replace (x ++ c :: (y ++ [z]) ++ spare) with ((x ++ [c]) ++ y ++ z :: spare) by (rewrite <- !app_assoc; reflexivity).
      rewrite skipn_app_len; auto. rewrite app_length. unfold len. cbn. lia.
    + rewrite B. rewrite <- !app_assoc. cbn [app]. rewrite <- app_assoc. reflexivity.
    + rewrite B, !len_app, len_cons, len_app. pose proof (len_nonneg spare). change (len [z]) with 1. lia.
Qed.

(* looking for a value *)
Lemma find_loop_spec v spare : forall y fuel x, known y -> len y <= Z.of_nat fuel -> 
  exists i, find_loop fuel ((x ++ y) ++ spare) (len x + len y) (len x) v = Ok i /\
   ((exists p q, y = p ++ Some v :: q /\ ~ In (Some v) p /\ i = s32 (len x + len p)) \/ (~ In (Some v) y /\ i = -1)).
Proof.
  induction y as [|c y IH]; intros fuel x K F.
  - exists (-1). split; [|right; auto]. change (len (@nil (option Z))) with 0. destruct fuel; cbn [find_loop]; replace (len x <? len x + 0) with false by lia; reflexivity.
  - pose proof (Forall_inv K) as Kc. pose proof (Forall_inv_tail K) as Ky. destruct c as [u|]; [|congruence]. rewrite len_cons in *. pose proof (len_nonneg y). pose proof (len_nonneg x).
    destruct fuel as [|fuel]; [lia|]. cbn [find_loop]. replace (len x <? len x + (1 + len y)) with true by lia.
    assert (rd ((x ++ Some u :: y) ++ spare) (len x) = Ok (Some u)) as ->.
    { apply rd_ok. split; [lia|]. rewrite <- app_assoc, nth_error_app2 by (unfold len; lia). replace (Z.to_nat (len x) - length x)%nat with O by (unfold len; lia). reflexivity. }
    cbn [bind]. destruct (u =? v) eqn:E.
    + assert (u = v) by lia. subst u. exists (s32 (len x)). split; auto. left. exists [], y. cbn. split; auto. split; auto. f_equal. lia.
    + destruct (IH fuel (x ++ [Some u]) Ky) as (i & Ei & Hi).
      { lia. }
      rewrite <- (app_assoc x), len_app in Ei. change (len [Some u]) with 1 in Ei. cbn [app] in Ei.
      replace (len x + 1 + len y) with (len x + (1 + len y)) in Ei by lia.
      exists i. split; auto. rewrite len_app in Hi. change (len [Some u]) with 1 in Hi.
      destruct Hi as [(p & q & -> & Np & ->)|(Ny & ->)].
      * left. exists (Some u :: p), q. split; auto. split; [cbn; intros [H1|H1]; [injection H1; lia|auto]|rewrite len_cons; f_equal; lia].
      * right. split; auto. cbn. intros [H1|H1]; [injection H1; lia|auto].
Qed.

Lemma find_spec a l v : shows a l -> known l -> len l <= 2^31 ->
  exists i, find (Some a) v = Ok i /\ first_index v l i.
Proof.
  intros (C & spare & B) K L. cbn [find]. rewrite C, B.
  destruct (find_loop_spec v spare l (Z.to_nat (len l)) [] K) as (i & E & H); [pose proof (len_nonneg l); lia|].
  exists i. split; [exact E|]. destruct H as [(p & q & -> & N & ->)|(N & ->)]; [|right; auto].
  left. exists p, q. split; auto. split; auto. cbn [len length Z.of_nat Z.add]. rewrite len_app, len_cons in L. pose proof (len_nonneg q). pose proof (len_nonneg p).
  rewrite s32_id; auto. unfold in_s32. lia.
Qed.

Lemma remove_spec a l v : shows a l -> known l -> len l <= 2^31 ->
  exists a' l' b, remove (Some a) v = Ok (Some a', b) /\ shows a' l' /\ crit a' = crit a /\ refs a' = refs a /\ does l (ORemove v) (RBool b) l'.
Proof.
  intros Sh K L. unfold remove. destruct (find_spec a l v Sh K L) as (i & -> & [(x & y & -> & N & ->)|(N & ->)]); cbn [bind].
  - pose proof (len_nonneg x). replace (len x >=? 0) with true by lia.
    destruct (g_remove_index_spec a x (Some v) y Sh) as (a' & -> & Sh' & Cr & Rf). cbn [bind].
    exists a', (x ++ y), true. repeat (split; [auto|]). left. exists x, y. auto.
  - exists a, l, false. repeat (split; [auto|]). right. auto.
Qed.

Lemma remove_fast_spec a l v : shows a l -> known l -> len l <= 2^31 ->
  exists a' l' b, remove_fast (Some a) v = Ok (Some a', b) /\ shows a' l' /\ crit a' = crit a /\ refs a' = refs a /\ does l (ORemoveFast v) (RBool b) l'.
Proof.
  intros Sh K L. unfold remove_fast. destruct (find_spec a l v Sh K L) as (i & -> & [(x & y & -> & N & ->)|(N & ->)]); cbn [bind].
  - pose proof (len_nonneg x). replace (len x >=? 0) with true by lia.
    destruct (g_remove_fast_spec a x (Some v) y Sh) as (a' & l' & -> & Sh' & Cr & Rf & D). cbn [bind].
    exists a', l', true. repeat (split; [auto|]). left. exists x, y. split; auto. split; auto. split; auto.
    destruct D as [(-> & ->)|(y' & z & -> & ->)].
    + rewrite app_nil_r. split; [auto|]. exists []. rewrite app_nil_r. auto.
    + split; [|exists (z :: y'); auto]. apply Permutation_app_head. apply Permutation_cons_append.
  - exists a, l, false. repeat (split; [auto|]). right. auto.
Qed.

Lemma filter_none {A} (f : A -> bool) l : (forall x, In x l -> f x = false) -> filter f l = [].
Proof. induction l; cbn; intros H; auto. rewrite H by auto. apply IHl. auto. Qed.
Lemma filter_all {A} (f : A -> bool) l : (forall x, In x l -> f x = true) -> filter f l = l.
Proof. induction l; cbn; intros H; auto. rewrite H by auto. f_equal. apply IHl. auto. Qed.
Lemma is_val_iff v c : is_val v c = true <-> c = Some v.
Proof. destruct c; cbn; [rewrite Z.eqb_eq|]; split; congruence. Qed.
Lemma is_val_not v l : ~ In (Some v) l -> forall c, In c l -> is_val v c = false.
Proof. intros N c I. destruct (is_val v c) eqn:E; auto. apply is_val_iff in E. subst. contradiction. Qed.
Lemma keep_not v l : ~ In (Some v) l -> filter (fun c => negb (is_val v c)) l = l.
Proof. intros N. apply filter_all. intros c I. rewrite (is_val_not v l N c I). reflexivity. Qed.
Lemma known_app x y : known (x ++ y) <-> known x /\ known y.
Proof. apply Forall_app. Qed.

Lemma is_val_self v : is_val v (Some v) = true.
Proof. cbn. lia. Qed.

Lemma remove_all_spec v : forall fuel a l n, shows a l -> known l -> len l <= 2^31 -> 0 <= n -> n + len l < 2^32 -> len l <= Z.of_nat fuel ->
  exists a' l', remove_loop remove fuel (Some a) v n = Ok (Some a', n + len (filter (is_val v) l)) /\ shows a' l' /\ crit a' = crit a /\ refs a' = refs a /\
    l' = filter (fun c => negb (is_val v c)) l.
Proof.
  induction fuel; intros a l n Sh K L Hn Hb F; cbn [remove_loop];
  destruct (remove_spec a l v Sh K L) as (a1 & l1 & b & -> & Sh1 & Cr1 & Rf1 & [(x & y & -> & Nx & -> & R)|(Nl & -> & R)]); injection R as ->; cbn [bind].
  - rewrite len_app, len_cons in F. pose proof (len_nonneg x). pose proof (len_nonneg y). lia.
  - exists a1, l. rewrite (filter_none (is_val v)) by (apply is_val_not; auto). rewrite keep_not by auto. change (len (@nil (option Z))) with 0. rewrite Z.add_0_r. auto.
  - rewrite len_app, len_cons in *. pose proof (len_nonneg x). pose proof (len_nonneg y). apply known_app in K. destruct K as (Kx & Ky).
    pose proof (Forall_inv_tail Ky) as Ky'.
    rewrite u32_id by (unfold in_u32; lia).
    destruct (IHfuel a1 (x ++ y) (n + 1)) as (a2 & l2 & E & Sh2 & Cr2 & Rf2 & H2); rewrite ?len_app; auto; try lia. { apply known_app. auto. }
    exists a2, l2. rewrite E. split; [|split; [auto|split; [congruence|split; [congruence|]]]].
    + do 2 f_equal. rewrite !filter_app. cbn [filter]. rewrite is_val_self. rewrite !len_app, len_cons. lia.
    + rewrite H2, !filter_app. cbn [filter]. rewrite is_val_self. reflexivity.
  - exists a1, l. rewrite (filter_none (is_val v)) by (apply is_val_not; auto). rewrite keep_not by auto. change (len (@nil (option Z))) with 0. rewrite Z.add_0_r. auto.
Qed.

Lemma perm_filter {A} (f : A -> bool) l m : Permutation l m -> Permutation (filter f l) (filter f m).
Proof.
  induction 1; cbn; auto; repeat match goal with |- context [if f ?x then _ else _] => destruct (f x) end; auto; try constructor.
  etransitivity; eauto.
Qed.
Lemma perm_known l m : Permutation l m -> known l -> known m.
Proof. unfold known. intros P K. rewrite Forall_forall in *. intros x I. apply K. apply Permutation_in with m; [symmetry; auto|auto]. Qed.
Lemma perm_len {A} (l m : list A) : Permutation l m -> len l = len m.
Proof. intros P. unfold len. rewrite (Permutation_length P). reflexivity. Qed.

Lemma remove_all_fast_spec v : forall fuel a l n, shows a l -> known l -> len l <= 2^31 -> 0 <= n -> n + len l < 2^32 -> len l <= Z.of_nat fuel ->
  exists a' l', remove_loop remove_fast fuel (Some a) v n = Ok (Some a', n + len (filter (is_val v) l)) /\ shows a' l' /\ crit a' = crit a /\ refs a' = refs a /\
    Permutation l' (filter (fun c => negb (is_val v c)) l).
Proof.
  induction fuel; intros a l n Sh K L Hn Hb F; cbn [remove_loop];
  destruct (remove_fast_spec a l v Sh K L) as (a1 & l1 & b & -> & Sh1 & Cr1 & Rf1 & [(x & y & -> & Nx & R & P & _)|(Nl & -> & R)]); injection R as ->; cbn [bind].
  - rewrite len_app, len_cons in F. pose proof (len_nonneg x). pose proof (len_nonneg y). lia.
  - exists a1, l. rewrite (filter_none (is_val v)) by (apply is_val_not; auto). rewrite keep_not by auto. change (len (@nil (option Z))) with 0. rewrite Z.add_0_r. auto.
  - pose proof (perm_len _ _ P) as PL. rewrite len_app in PL. rewrite len_app, len_cons in *. pose proof (len_nonneg x). pose proof (len_nonneg y).
    apply known_app in K. destruct K as (Kx & Ky). pose proof (Forall_inv_tail Ky) as Ky'.
    rewrite u32_id by (unfold in_u32; lia).
    destruct (IHfuel a1 l1 (n + 1)) as (a2 & l2 & E & Sh2 & Cr2 & Rf2 & H2); auto; try lia.
    { apply perm_known with (x ++ y); [symmetry; auto|]. apply known_app. auto. }
    exists a2, l2. rewrite E. split; [|split; [auto|split; [congruence|split; [congruence|]]]].
    + do 2 f_equal. rewrite (perm_len _ _ (perm_filter (is_val v) _ _ P)). rewrite !filter_app. cbn [filter]. rewrite is_val_self. rewrite !len_app, len_cons. lia.
    + rewrite H2. rewrite (perm_filter _ _ _ P). rewrite !filter_app. cbn [filter]. rewrite is_val_self. reflexivity.
  - exists a1, l. rewrite (filter_none (is_val v)) by (apply is_val_not; auto). rewrite keep_not by auto. change (len (@nil (option Z))) with 0. rewrite Z.add_0_r. auto.
Qed.

(* sorting *)
Lemma merge_perm cmp : forall l1 l2 r, merge cmp l1 l2 = Ok r -> Permutation (l1 ++ l2) r.
Proof.
  induction l1 as [|a l1 IH1]; intros l2; [|induction l2 as [|b l2 IH2]]; intros r H.
  - destruct l2; cbn in H; injection H as <-; reflexivity.
  - cbn in H. injection H as <-. rewrite app_nil_r. reflexivity.
  - cbn in H. destruct (cmp a b) as [c|]; cbn [bind] in H; [|discriminate]. destruct (c <=? 0).
    + destruct (merge cmp l1 (b :: l2)) as [r1|] eqn:E; cbn [bind] in H; [|discriminate]. injection H as <-. cbn. constructor. apply IH1. auto.
    + destruct ((fix inner (l3 : list Z) : res (list Z) := match l3 with [] => Ok (a :: l1) | b0 :: t2 => do c0 <- cmp a b0; if c0 <=? 0 then do r0 <- merge cmp l1 l3; Ok (a :: r0) else do r0 <- inner t2; Ok (b0 :: r0) end) l2) as [r1|] eqn:E;
        cbn [bind] in H; [|discriminate]. injection H as <-. rewrite <- (IH2 r1); [|cbn; destruct l2; exact E].
      symmetry. apply (Permutation_middle (a :: l1) l2 b).
Qed.

Lemma msort_perm cmp : forall fuel l r, msort cmp fuel l = Ok r -> Permutation l r.
Proof.
  induction fuel; intros l r H; destruct l as [|a [|b l]]; cbn [msort] in H; try (injection H as <-; reflexivity); try discriminate.
  set (m := a :: b :: l) in *. set (n1 := Z.to_nat (len m / 2)) in *.
  destruct (msort cmp fuel (firstn n1 m)) as [x|] eqn:E1; cbn [bind] in H; [|discriminate].
  destruct (msort cmp fuel (skipn n1 m)) as [y|] eqn:E2; cbn [bind] in H; [|discriminate].
  apply merge_perm in H. rewrite <- H. rewrite <- (IHfuel _ _ E1), <- (IHfuel _ _ E2), firstn_skipn. reflexivity.
Qed.

(* a comparator which agrees with a total order on the values of the list *)
Lemma merge_sorted cmp (R : Z -> Z -> Prop) (P : Z -> Prop)
  (ok : forall x y, P x -> P y -> exists c, cmp x y = Ok c /\ (c <= 0 -> R x y) /\ (0 < c -> R y x)) (tr : forall x y z, R x y -> R y z -> R x z) :
  forall l1 l2, Forall P l1 -> Forall P l2 -> StronglySorted R l1 -> StronglySorted R l2 ->
  exists r, merge cmp l1 l2 = Ok r /\ StronglySorted R r.
Proof.
  induction l1 as [|a l1 IH1]; intros l2; [|induction l2 as [|b l2 IH2]]; intros F1 F2 S1 S2.
  - exists l2. destruct l2; cbn; auto.
  - exists (a :: l1). auto.
  - pose proof (Forall_inv F1) as Pa. pose proof (Forall_inv F2) as Pb. pose proof (Forall_inv_tail F1) as F1'. pose proof (Forall_inv_tail F2) as F2'.
    inversion S1 as [|? ? S1' A1]; subst. inversion S2 as [|? ? S2' A2]; subst.
    destruct (ok a b Pa Pb) as (c & Ec & C1 & C2).
    change (merge cmp (a :: l1) (b :: l2)) with (do c <- cmp a b; if c <=? 0 then do r <- merge cmp l1 (b :: l2); Ok (a :: r) else do r <- merge cmp (a :: l1) l2; Ok (b :: r)).
    rewrite Ec. cbn [bind]. destruct (c <=? 0) eqn:E.
    + destruct (IH1 (b :: l2) F1' F2 S1' S2) as (r & Er & Sr). rewrite Er. cbn [bind]. eexists. split; [reflexivity|]. constructor; auto.
      apply merge_perm in Er. rewrite Forall_forall. intros z Hz. apply (Permutation_in z (Permutation_sym Er)) in Hz. apply in_app_or in Hz.
      rewrite Forall_forall in A1, A2. destruct Hz as [Hz|[<-|Hz]]; [auto|apply C1; lia|]. apply tr with b; [apply C1; lia|auto].
    + destruct (IH2 F1 F2' S1 S2') as (r & Er & Sr). rewrite Er. cbn [bind]. eexists. split; [reflexivity|]. constructor; auto.
      apply merge_perm in Er. rewrite Forall_forall. intros z Hz. apply (Permutation_in z (Permutation_sym Er)) in Hz. cbn in Hz.
      rewrite Forall_forall in A1, A2. destruct Hz as [<-|Hz]; [apply C2; lia|]. apply in_app_or in Hz. destruct Hz as [Hz|Hz]; [|auto].
      apply tr with a; [apply C2; lia|auto].
Qed.

Lemma msort_sorted cmp (R : Z -> Z -> Prop) (P : Z -> Prop)
  (ok : forall x y, P x -> P y -> exists c, cmp x y = Ok c /\ (c <= 0 -> R x y) /\ (0 < c -> R y x)) (tr : forall x y z, R x y -> R y z -> R x z) :
  forall fuel l, (length l <= fuel)%nat -> Forall P l -> exists r, msort cmp fuel l = Ok r /\ StronglySorted R r.
Proof.
  induction fuel; intros l Hf F; destruct l as [|a [|b l]]; try (exists []; split; [reflexivity|constructor]; fail);
    try (exists [a]; split; [reflexivity|repeat constructor]; fail); [cbn in Hf; lia|].
  cbn [msort]. set (m := a :: b :: l) in *. set (n1 := Z.to_nat (len m / 2)) in *.
  assert (1 <= n1 < length m)%nat as Hn. { unfold n1, m, len. cbn [length]. lia. }
  assert (Forall P (firstn n1 m) /\ Forall P (skipn n1 m)) as (F1 & F2) by (apply Forall_app; rewrite firstn_skipn; auto).
  destruct (IHfuel (firstn n1 m)) as (x & Ex & Sx); auto. { rewrite firstn_length. lia. }
  destruct (IHfuel (skipn n1 m)) as (y & Ey & Sy); auto. { rewrite skipn_length. lia. }
  rewrite Ex, Ey. cbn [bind]. apply msort_perm in Ex, Ey.
  apply (merge_sorted cmp R P); auto.
  - rewrite Forall_forall in *. intros z Hz. apply F1. apply Permutation_in with x; [symmetry|]; auto.
  - rewrite Forall_forall in *. intros z Hz. apply F2. apply Permutation_in with y; [symmetry|]; auto.
Qed.

Lemma StronglySorted_weak {A} (R : A -> A -> Prop) l : StronglySorted R l -> Sorted R l.
Proof. apply StronglySorted_Sorted. Qed.

Lemma known_vals l : known l -> exists vs, l = map Some vs.
Proof.
  induction l as [|c l IH]; intros K; [exists []; auto|]. destruct (IH (Forall_inv_tail K)) as (vs & ->).
  pose proof (Forall_inv K). destruct c as [v|]; [|congruence]. exists (v :: vs). auto.
Qed.

Lemma read_all_spec vs : read_all (map Some vs) = Ok vs.
Proof. induction vs; cbn; auto. rewrite IHvs. reflexivity. Qed.

Lemma slice_0' {A} (l r : list A) : slice (l ++ r) 0 (len l) = l.
Proof. unfold slice. cbn [Z.to_nat skipn]. apply firstn_app_len. unfold len. lia. Qed.

Lemma g_sort_spec cmp (R : Z -> Z -> Prop) a vs
  (ok : forall x y, In x vs -> In y vs -> exists c, cmp x y = Ok c /\ (c <= 0 -> R x y) /\ (0 < c -> R y x)) (tr : forall x y z, R x y -> R y z -> R x z) :
  shows a (map Some vs) -> exists a' ws, g_sort cmp a = Ok a' /\ shows a' (map Some ws) /\ crit a' = crit a /\ refs a' = refs a /\ Permutation vs ws /\ Sorted R ws.
Proof.
  intros (C & spare & B). unfold g_sort. rewrite C. destruct (len (map Some vs) >? 0) eqn:E.
  - rewrite B, slice_0', read_all_spec. cbn [bind].
    destruct (msort_sorted cmp R (fun x => In x vs) ok tr (length vs) vs) as (ws & Ew & Sw); auto. { apply Forall_forall. auto. }
    rewrite Ew. cbn [bind]. apply msort_perm in Ew. exists (set_bc a (map Some ws ++ spare) (len (map Some vs))), ws.
    rewrite skipn_app_len by (unfold len; lia). split; auto.
    assert (len (map Some vs) = len (map Some ws)) as L by (rewrite !len_map; apply perm_len; auto).
    rewrite L. split; [apply shows_bc|]. repeat (split; auto). apply StronglySorted_Sorted. auto.
  - exists a, vs. assert (len vs = 0) as L by (rewrite len_map in E; pose proof (len_nonneg vs); lia). apply len0 in L. subst vs.
    split; auto. split; [split; eauto|]. repeat (split; auto).
Qed.

Lemma ascending_ok d x y : in_s32 (x - y) -> exists c, ascending_proc d x y = Ok c /\ (c <= 0 -> x <= y) /\ (0 < c -> y <= x).
Proof.
  intros H. exists (x - y). split; [|lia]. unfold ascending_proc. unfold in_s32 in H. destruct d; cbn [arith32].
  - replace ((-2^31 <=? x - y) && (x - y <? 2^31)) with true by lia. reflexivity.
  - rewrite s32_id; auto.
Qed.
Lemma descending_ok d x y : in_s32 (y - x) -> exists c, descending_proc d x y = Ok c /\ (c <= 0 -> x >= y) /\ (0 < c -> y >= x).
Proof.
  intros H. exists (y - x). split; [|lia]. unfold descending_proc. unfold in_s32 in H. destruct d; cbn [arith32].
  - replace ((-2^31 <=? y - x) && (y - x <? 2^31)) with true by lia. reflexivity.
  - rewrite s32_id; auto.
Qed.

Lemma filter_length_le {A} (f : A -> bool) l : (length (filter f l) <= length l)%nat.
Proof. induction l; cbn; auto. destruct (f a); cbn; lia. Qed.

(* one call *)
Lemma step_spec d grow a l o : (forall k, k <= grow k) -> shows a l -> len l < 2^32 -> admissible l o ->
  exists a' r l', step d grow (Some a) o = Ok (Some a', r) /\ shows a' l' /\ does l o r l' /\ crit a' = crit a + complains l o /\ refs a' = refs a /\ len l' < 2^32.
Proof.
  intros G Sh Hl Ad. pose proof (len_nonneg l) as L0.
  destruct o; cbn [step admissible complains] in *; unfold quiet, append_vals, prepend_vals, insert_vals, set_count, remove_index, remove_index_fast, remove_range, sort_ascending, sort_descending, on; try rewrite !Z.add_0_r.
  - destruct (g_append_spec grow a l vals G Sh Ad) as (a' & -> & S' & Cr & Rf). exists a', RNone. eexists. split; [reflexivity|]. split; [eauto|]. cbn [does]. repeat (split; auto). rewrite len_app, len_map. lia.
  - destruct (g_prepend_spec grow a l vals G Sh Ad) as (a' & -> & S' & Cr & Rf). exists a', RNone. eexists. split; [reflexivity|]. split; [eauto|]. cbn [does]. repeat (split; auto). rewrite len_app, len_map. lia.
  - destruct Ad as (Hp & Hs). pose proof (len_nonneg vals). destruct (list_eq_dec Z.eq_dec vals []) as [->|Nv].
    { unfold g_insert_vals. change (len (@nil Z) =? 0) with true. cbn [bind]. exists a, RNone, l. split; auto. split; auto.
      cbn [does map]. split; [|auto]. split; auto. split; [|split; [auto|congruence]]. intros H1. destruct (split_at l pos) as (x & y & -> & Lx); [lia|]. exists x, y. auto. }
    destruct (Z_lt_le_dec pos (len l)) as [H1|H1].
    + destruct (split_at l pos) as (x & y & -> & Lx); [lia|]. rewrite len_app in *.
      destruct (g_insert_spec grow a x y vals G Sh) as (a' & E & S' & Cr & Rf); auto; try lia.
      { intros ->. change (len (@nil (option Z))) with 0 in *. lia. }
      rewrite <- Lx, E. cbn [bind]. exists a', RNone. eexists. split; [reflexivity|]. split; [eauto|]. cbn [does].
      split; [|split; [auto|split; [auto|rewrite !len_app, len_map; lia]]]. split; auto. split; [intros _; exists x, y; auto|]. rewrite len_app. pose proof (len_nonneg y). split; intros; lia.
    + unfold g_insert_vals. pose proof Sh as (C & _).
      assert (0 < len vals) by (destruct vals; [congruence|rewrite len_cons; pose proof (len_nonneg vals); lia]).
      replace (len vals =? 0) with false by lia. replace (pos >=? count a) with true by lia.
      rewrite u32_id by (unfold in_u32; lia). destruct (expand_spec grow a l (pos - count a + len vals) G Sh) as (sp & -> & Hsp); try lia. cbn [bind].
      destruct (g_set_size_spec grow (set_bc a (l ++ sp) (len l)) l pos G (shows_bc a l sp) Hp Hl) as (a1 & l1 & -> & S1 & Cr1 & Rf1 & _ & D1). cbn [bind].
      destruct (D1 H1) as (gap & Lg & ->).
      destruct (g_append_spec grow a1 (l ++ gap) vals G S1) as (a2 & -> & S2 & Cr2 & Rf2); [rewrite len_app; lia|]. cbn [bind].
      exists a2, RNone. eexists. split; [reflexivity|]. split; [eauto|]. cbn [does]. cbn in Cr1, Rf1.
      split; [|split; [lia|split; [congruence|rewrite !len_app, len_map; lia]]]. split; auto.
      split; [intros; assert (pos = len l) by lia; assert (gap = []) by (apply len0; lia); subst gap; exists l, []; rewrite !app_nil_r; auto|].
      split; [intros; congruence|]. intros. exists gap. split; [lia|]. rewrite <- app_assoc. auto.
  - destruct (g_set_size_spec grow a l n G Sh Ad Hl) as (a' & l' & -> & S' & Cr & Rf & D1 & D2). cbn [bind]. exists a', RNone, l'. split; auto. split; auto. cbn [does].
    split; auto. split; [auto|]. split; auto. destruct (Z_le_gt_dec n (len l)) as [H1|H1].
    + destruct (D1 H1) as (y & -> & <-). lia. 
    + destruct D2 as (gap & Lg & ->); [lia|]. rewrite len_app. lia.
  - pose proof Sh as (C & _). destruct (pos <? count a) eqn:E.
    + destruct (split_mid l pos) as (x & c & y & -> & Lx); [lia|]. destruct (g_remove_index_spec a x c y Sh) as (a' & E' & S' & Cr & Rf).
      rewrite <- Lx, E'. cbn [bind]. exists a', RNone. eexists. split; [reflexivity|]. split; [eauto|]. cbn [does].
      rewrite len_app, len_cons in *. pose proof (len_nonneg x). pose proof (len_nonneg y). split; [|split; [auto|split; [auto|rewrite len_app; lia]]]. split; auto. split; [exists x, c, y; auto|intros; lia].
    + cbn [bind]. exists a, RNone, l. split; auto. split; auto. cbn [does]. repeat (split; auto). intros; lia.
  - pose proof Sh as (C & _). destruct (pos <? len l) eqn:E.
    + destruct (split_mid l pos) as (x & c & y & -> & Lx); [lia|]. destruct (g_remove_fast_spec a x c y Sh) as (a' & l' & E' & S' & Cr & Rf & D).
      rewrite <- Lx, E'. cbn [bind]. exists a', RNone, l'. split; [reflexivity|]. split; [eauto|]. cbn [does].
      rewrite len_app, len_cons in *. pose proof (len_nonneg x). pose proof (len_nonneg y). split; [|split; [lia|split; [auto|]]].
      * split; auto. split; [exists x, c, y; auto|intros; lia].
      * destruct D as [(-> & ->)|(y' & z & -> & ->)]; rewrite ?len_app, ?len_cons in *; change (len (@nil (option Z))) with 0 in *; lia.
    + unfold g_remove_index_fast. replace (negb (pos <? count a)) with true by lia. cbn [bind]. exists (warn a), RNone, l. split; auto. split; auto. cbn [does]. repeat (split; auto). intros; lia.
  - destruct Ad as (Hp & Hn & Ho). pose proof Sh as (C & _). destruct ((pos <? count a) && negb (n =? 0)) eqn:E.
    + assert (pos < len l /\ 0 < n /\ pos + n < 2^32) as (E1 & E2 & E3) by lia. rewrite (u32_id (pos + n)) by (unfold in_u32; lia).
      destruct (split_at l pos) as (x & t & -> & Lx); [lia|]. rewrite len_app in *.
      destruct (split_at t (Z.min n (len t))) as (m & y & -> & Lm); [lia|]. rewrite !len_app in *. pose proof (len_nonneg m). pose proof (len_nonneg y).
      replace (u32 ((if pos + n >? count a then count a else pos + n) - pos)) with (len m) by (rewrite u32_id; unfold in_u32; destruct (pos + n >? count a) eqn:E'; lia).
      destruct (g_remove_range_spec a x m y Sh) as (a' & E' & S' & Cr & Rf); [lia|]. rewrite <- Lx, E'. cbn [bind].
      exists a', RNone. eexists. split; [reflexivity|]. split; [eauto|]. cbn [does]. split; [|split; [auto|split; [auto|rewrite len_app; lia]]].
      split; auto. exists x, m, y. rewrite !len_app. repeat (split; [auto; lia|]). auto.
    + cbn [bind]. exists a, RNone, l. split; auto. split; auto. cbn [does]. split; [|split; [auto|auto]]. split; auto.
      destruct (split_at l (Z.min pos (len l))) as (x & y & -> & Lx); [lia|]. rewrite len_app in *. pose proof (len_nonneg x). pose proof (len_nonneg y). exists x, [], y. change (len (@nil (option Z))) with 0.
      repeat (split; [auto; lia|]). auto.
  - destruct Ad as (K & H31). destruct (find_spec a l v Sh K H31) as (i & -> & F). cbn [bind]. exists a, (RInt i), l. split; auto. split; auto. cbn [does]. split; [|auto]. eauto.
  - destruct Ad as (K & H31). unfold contains. destruct (find_spec a l v Sh K H31) as (i & -> & F). cbn [bind]. exists a, (RBool (i >=? 0)), l. split; auto. split; auto. cbn [does]. split; [|auto].
    split; auto. eexists. split; [reflexivity|]. destruct F as [(x & y & -> & _ & ->)|(N & ->)].
    + pose proof (len_nonneg x). split; [intros _; apply in_or_app; right; left; auto|lia].
    + split; [discriminate|contradiction].
  - destruct Ad as (K & H31). destruct (remove_spec a l v Sh K H31) as (a' & l' & b & -> & S' & Cr & Rf & D). cbn [bind]. exists a', (RBool b), l'. split; auto. split; auto. split; auto. split; auto. split; auto.
    destruct D as [(x & y & -> & _ & -> & _)|(_ & -> & _)]; rewrite ?len_app, ?len_cons in *; lia.
  - destruct Ad as (K & H31). destruct (remove_fast_spec a l v Sh K H31) as (a' & l' & b & -> & S' & Cr & Rf & D). cbn [bind]. exists a', (RBool b), l'. split; auto. split; auto. split; auto. split; auto. split; auto.
    destruct D as [(x & y & -> & _ & _ & P & _)|(_ & -> & _)]; [rewrite (perm_len _ _ P)|]; rewrite ?len_app, ?len_cons in *; lia.
  - destruct Ad as (K & H31). unfold remove_all, size_of. destruct Sh as (C & B). destruct (remove_all_spec v (Z.to_nat (count a)) a l 0 (conj C B) K H31) as (a' & l' & -> & S' & Cr & Rf & D); try lia. cbn [bind Z.add].
    exists a', (RInt (len (filter (is_val v) l))), l'. split; auto. split; auto. cbn [does]. repeat (split; auto).
    rewrite D. unfold len. pose proof (filter_length_le (fun c => negb (is_val v c)) l). unfold len in Hl. lia.
  - destruct Ad as (K & H31). unfold remove_all_fast, size_of. destruct Sh as (C & B). destruct (remove_all_fast_spec v (Z.to_nat (count a)) a l 0 (conj C B) K H31) as (a' & l' & -> & S' & Cr & Rf & D); try lia. cbn [bind Z.add].
    exists a', (RInt (len (filter (is_val v) l))), l'. split; auto. split; auto. cbn [does]. repeat (split; auto).
    rewrite (perm_len _ _ D). unfold len. pose proof (filter_length_le (fun c => negb (is_val v c)) l). unfold len in Hl. lia.
  - destruct Ad as (K & Cl). destruct (known_vals l K) as (vs & ->).
    destruct (g_sort_spec (ascending_proc d) Z.le a vs) as (a' & ws & -> & S' & Cr & Rf & P & Srt); auto; [|intros; lia|].
    { intros x y Ix Iy. apply ascending_ok. apply Cl; apply in_map; auto. }
    cbn [bind]. exists a', RNone. eexists. split; [reflexivity|]. split; [eauto|]. cbn [does]. split; [|split; [auto|split; [auto|]]].
    + split; auto. exists vs, ws. auto.
    + rewrite len_map in *. rewrite <- (perm_len _ _ P). auto.
  - destruct Ad as (K & Cl). destruct (known_vals l K) as (vs & ->).
    destruct (g_sort_spec (descending_proc d) Z.ge a vs) as (a' & ws & -> & S' & Cr & Rf & P & Srt); auto; [|intros; lia|].
    { intros x y Ix Iy. apply descending_ok. apply Cl; apply in_map; auto. }
    cbn [bind]. exists a', RNone. eexists. split; [reflexivity|]. split; [eauto|]. cbn [does]. split; [|split; [auto|split; [auto|]]].
    + split; auto. exists vs, ws. auto.
    + rewrite len_map in *. rewrite <- (perm_len _ _ P). auto.
Qed.

Lemma run_spec d grow : (forall k, k <= grow k) -> forall os a l, shows a l -> len l < 2^32 -> all_admissible l os ->
  exists a' rs l', run d grow (Some a) os = Ok (Some a', rs) /\ shows a' l' /\ runs l os rs l' /\ refs a' = refs a.
Proof.
  intros G. induction os as [|o os IH]; intros a l Sh Hl Ad; cbn [run].
  - exists a, [], l. split; auto. split; auto. split; [constructor|auto].
  - destruct Ad as (Ao & At). destruct (step_spec d grow a l o G Sh Hl Ao) as (a1 & r & l1 & -> & S1 & D & _ & Rf1 & L1). cbn [bind].
    destruct (IH a1 l1 S1 L1 (At r l1 D)) as (a2 & rs & l2 & -> & S2 & R & Rf2). cbn [bind].
    exists a2, (r :: rs), l2. split; auto. split; auto. split; [econstructor; eauto|congruence].
Qed.
