(* Lemmas about the string array model *)
From Verif Require Import Base PtrvModel PtrvSpec PtrvProofs StrvModel StrvSpec.
From Coq Require Import ZifyBool Arith.
Ltac Zify.zify_post_hook ::= Z.div_mod_to_equations.

Lemma str_eqb_spec a b : reflect (a = b) (str_eqb a b).
Proof. unfold str_eqb. destruct (list_eq_dec Z.eq_dec a b); constructor; auto. Qed.

Lemma scmp_eq scmp a b : good_strcmp scmp -> good_str a -> good_str b -> (scmp a b =? 0) = str_eqb a b.
Proof.
  intros G Ga Gb. destruct (G a b Ga Gb) as (S & _). destruct (str_eqb_spec a b) as [->|N].
  - rewrite lexc_refl in S. cbn in S. lia.
  - destruct (lexc a b) eqn:L; cbn in S; [apply lexc_eq in L; congruence|lia|lia].
Qed.

Lemma len_map {A B} (f : A -> B) l : len (map f l) = len l.
Proof. unfold len. rewrite map_length. auto. Qed.

Lemma array_length h v ps : array h v ps -> strv_length v = Ok (len ps).
Proof.
  intros (H & _ & _ & L). unfold strv_length. rewrite (length_spec v _ H) by (rewrite len_map; lia). cbn [bind]. rewrite len_map, u32_id; auto.
  unfold in_u32. pose proof (len_nonneg ps). lia.
Qed.

(* the test of an element *)
Definition content_is (h : strs) (t : str) (x : nat) : bool := match nth_error h x with Some (Some s) => str_eqb s t | _ => false end.

Lemma same_spec scmp h s t x a : good_strcmp scmp -> arg h s t -> arg h x a -> same scmp h s x = Ok (str_eqb a t).
Proof.
  intros G (Hs & Gs) (Hx & Gx). unfold same, look. rewrite Hx. cbn [bind]. rewrite Hs. cbn [bind]. rewrite scmp_eq; auto.
Qed.

Lemma array_arg h v ps i s : array h v ps -> In (i, s) ps -> arg h i s.
Proof. intros (_ & _ & F & _) H. apply F. auto. Qed.

Lemma array_arg_fst h v ps i : array h v ps -> In i (map fst ps) -> exists s, In (i, s) ps /\ arg h i s.
Proof. intros A H. apply in_map_iff in H. destruct H as ((j & s) & <- & H). exists s. split; auto. eapply array_arg; eauto. Qed.

(* the same string for the same pointer *)
Lemma content_array h v ps t i s : array h v ps -> In (i, s) ps -> content_is h t i = str_eqb s t.
Proof. intros A H. destruct (array_arg _ _ _ _ _ A H) as (E & _). unfold content_is. rewrite E. auto. Qed.

Lemma test_array scmp h v ps s t x : good_strcmp scmp -> array h v ps -> arg h s t -> In x (map fst ps) -> same scmp h s x = Ok (content_is h t x).
Proof.
  intros G A Hs Hx. destruct (array_arg_fst _ _ _ _ A Hx) as (a & Hin & Ha). rewrite (same_spec scmp h s t x a); auto. rewrite (content_array h v ps t x a); auto.
Qed.

(* ---------------- finding ---------------- *)
Lemma find_loop_spec test (p : nat -> bool) junk : forall l i, (forall x, In x l -> test x = Ok (p x)) -> 0 <= i -> i + len l < 2^31 ->
  (find_loop test (map CPtr l ++ CNull :: junk) i = Ok (-1) /\ forall x, In x l -> p x = false) \/
  (exists a x c, l = a ++ x :: c /\ p x = true /\ (forall y, In y a -> p y = false) /\ find_loop test (map CPtr l ++ CNull :: junk) i = Ok (i + len a)).
Proof.
  induction l as [|x l IH]; intros i T Hi HL; cbn [map app find_loop as_ptr bind].
  - left. split; [auto|contradiction].
  - rewrite T by (left; auto). cbn [bind]. rewrite len_cons in HL. pose proof (len_nonneg l). destruct (p x) eqn:P.
    + right. exists [], x, l. repeat split; auto; [contradiction|]. f_equal. cbn. lia.
    + unfold arith32. replace ((- 2 ^ 31 <=? i + 1) && (i + 1 <? 2 ^ 31)) with true by lia. cbn [bind].
      destruct (IH (i + 1)) as [(E & N)|(a & y & c & El & Py & N & E)]; [intros; apply T; right; auto|lia|lia| |].
      * left. split; auto. intros y [<-|Hy]; auto.
      * right. exists (x :: a), y, c. split; [rewrite El; auto|]. split; auto. split; [intros z [<-|Hz]; auto|]. rewrite E. f_equal. rewrite len_cons. lia.
Qed.

Lemma map_app_inv {A B} (f : A -> B) l a c : map f l = a ++ c -> exists l1 l2, l = l1 ++ l2 /\ map f l1 = a /\ map f l2 = c.
Proof.
  revert a. induction l as [|x l IH]; intros a E.
  - destruct a, c; try discriminate. exists [], []. auto.
  - destruct a as [|y a].
    + exists [], (x :: l). auto.
    + cbn in E. injection E as <- E. destruct (IH a E) as (l1 & l2 & -> & <- & <-). exists (x :: l1), l2. auto.
Qed.
Lemma map_cons_inv {A B} (f : A -> B) l x c : map f l = x :: c -> exists y l2, l = y :: l2 /\ f y = x /\ map f l2 = c.
Proof. destruct l as [|y l]; [discriminate|]. cbn. intros E. injection E as <- <-. eauto. Qed.

Lemma strv_find_spec scmp h v ps s t : good_strcmp scmp -> array h v ps -> arg h s t ->
  (strv_find scmp h v (Some s) = Ok (-1) /\ ~ In t (map snd ps)) \/
  (exists a x c, ps = a ++ (x, t) :: c /\ ~ In t (map snd a) /\ strv_find scmp h v (Some s) = Ok (len a)).
Proof.
  intros G A Hs. destruct v as [b|]; cbn [strv_find].
  - pose proof A as ((junk & ->) & ND & F & L).
    destruct (find_loop_spec (same scmp h s) (content_is h t) junk (map fst ps) 0) as [(E & N)|(a & x & c & El & Px & N & E)].
    + intros x Hx. eapply test_array; eauto.
    + lia.
    + rewrite len_map. lia.
    + left. split; auto. intros Hin. apply in_map_iff in Hin. destruct Hin as ((i & s') & Es & Hin). cbn in Es. subst s'.
      specialize (N i (in_map fst _ _ Hin)). rewrite (content_array h _ ps t i t A Hin) in N. destruct (str_eqb_spec t t); congruence.
    + right. apply map_app_inv in El. destruct El as (pa & pr & -> & Ea & Er). apply map_cons_inv in Er. destruct Er as ((y & s') & pc & -> & Ey & Ec). cbn in Ey. subst y.
      assert (In (x, s') (pa ++ (x, s') :: pc)) as Hin by (apply in_or_app; right; left; auto).
      rewrite (content_array h _ _ t x s' A Hin) in Px. destruct (str_eqb_spec s' t) as [->|]; [|discriminate].
      exists pa, x, pc. split; auto. split.
      * intros Hin2. apply in_map_iff in Hin2. destruct Hin2 as ((i & s2) & Es & Hin2). cbn in Es. subst s2.
        assert (In i a) as Hia by (rewrite <- Ea; exact (in_map fst _ _ Hin2)). specialize (N i Hia).
        rewrite (content_array h _ _ t i t A) in N by (apply in_or_app; auto). destruct (str_eqb_spec t t); congruence.
      * rewrite E. f_equal. rewrite <- Ea, len_map. lia.
  - left. split; auto. destruct A as (H & _). cbn in H. destruct ps; [auto|discriminate].
Qed.

Lemma strv_find_last_spec scmp h v ps s t : good_strcmp scmp -> array h v ps -> arg h s t ->
  (strv_find_last scmp h v (Some s) = Ok (-1) /\ ~ In t (map snd ps)) \/
  (exists a x c, ps = a ++ (x, t) :: c /\ ~ In t (map snd c) /\ strv_find_last scmp h v (Some s) = Ok (len a)).
Proof.
  intros G A Hs. unfold strv_find_last. rewrite (array_length h v ps A). cbn [bind]. destruct v as [b|].
  - pose proof A as ((junk & ->) & ND & F & L). pose proof (len_nonneg ps). rewrite s32_id by (unfold in_s32; lia).
    replace (Z.to_nat (len ps)) with (length (map fst ps)) by (rewrite map_length; unfold len; lia).
    destruct (find_last_spec (same scmp h s) (content_is h t) [] (map fst ps) [] junk) as [(E & N)|(a & x & c & El & Px & N & E)].
    + intros x Hx. eapply test_array; eauto.
    + rewrite app_nil_r in E. left. split; auto. intros Hin. apply in_map_iff in Hin. destruct Hin as ((i & s') & Es & Hin). cbn in Es. subst s'.
      specialize (N i (in_map fst _ _ Hin)). rewrite (content_array h _ ps t i t A Hin) in N. destruct (str_eqb_spec t t); congruence.
    + rewrite app_nil_r in E. right. apply map_app_inv in El. destruct El as (pa & pr & -> & Ea & Er). apply map_cons_inv in Er. destruct Er as ((y & s') & pc & -> & Ey & Ec). cbn in Ey. subst y.
      assert (In (x, s') (pa ++ (x, s') :: pc)) as Hin by (apply in_or_app; right; left; auto).
      rewrite (content_array h _ _ t x s' A Hin) in Px. destruct (str_eqb_spec s' t) as [->|]; [|discriminate].
      exists pa, x, pc. split; auto. split.
      * intros Hin2. apply in_map_iff in Hin2. destruct Hin2 as ((i & s2) & Es & Hin2). cbn in Es. subst s2.
        assert (In i c) as Hia by (rewrite <- Ec; exact (in_map fst _ _ Hin2)). specialize (N i Hia).
        rewrite (content_array h _ _ t i t A) in N by (apply in_or_app; right; right; auto). destruct (str_eqb_spec t t); congruence.
      * rewrite <- Ea, len_map in E. exact E.
  - left. split; auto. destruct A as (H & _). cbn in H. destruct ps; [auto|discriminate].
Qed.

(* ---------------- access ---------------- *)
Lemma at_loop_spec l junk i : 0 <= i < 2^32 -> forall fuel k, (Z.to_nat (len l - k) < fuel)%nat -> 0 <= k <= len l -> k <= i ->
  at_loop fuel (map CPtr l ++ CNull :: junk) k i = Ok (Z.min i (len l)).
Proof.
  intros Hi. induction fuel; intros k Hf Hk Hki; [lia|]. cbn [at_loop]. destruct (Z.eq_dec k (len l)) as [->|N].
  - rewrite at_end. cbn [bind]. f_equal. lia.
  - destruct (nth_error l (Z.to_nat k)) as [x|] eqn:E. 2:{ apply nth_error_None in E. unfold len in *. lia. }
    rewrite <- (Z2Nat.id k) at 1 by lia. rewrite (at_in l junk _ x E). cbn [bind]. destruct (Z.ltb_spec k i).
    + rewrite u32_id by (unfold in_u32; lia). apply IHfuel; lia.
    + f_equal. lia.
Qed.

Lemma last_loop_spec l junk : len l < 2^32 - 1 -> forall fuel k, (Z.to_nat (len l - k) < fuel)%nat -> 0 <= k < len l ->
  last_loop fuel (map CPtr l ++ CNull :: junk) k = Ok (len l - 1).
Proof.
  intros HL. induction fuel; intros k Hf Hk; [lia|]. cbn [last_loop]. rewrite u32_id by (unfold in_u32; lia).
  destruct (Z.eq_dec (k + 1) (len l)) as [E|N].
  - rewrite E, at_end. cbn [bind]. f_equal. lia.
  - destruct (nth_error l (Z.to_nat (k + 1))) as [x|] eqn:E. 2:{ apply nth_error_None in E. unfold len in *. lia. }
    rewrite <- (Z2Nat.id (k + 1)) at 1 by lia. rewrite (at_in l junk _ x E). cbn [bind]. apply IHfuel; lia.
Qed.

(* ---------------- adding ---------------- *)
Lemma nth_error_app_new {A} (h : list A) x i a : nth_error h i = Some a -> nth_error (h ++ x) i = Some a.
Proof. intros H. rewrite nth_error_app1; auto. apply nth_error_Some. congruence. Qed.

Lemma strdup_spec h s t : arg h s t -> strdup h s = Ok (h ++ [Some t], length h).
Proof. intros (H & _). unfold strdup, look. rewrite H. reflexivity. Qed.

Fixpoint number (i : nat) (ts : list str) : list (nat * str) := match ts with [] => [] | t :: r => (i, t) :: number (S i) r end.
Lemma number_app i a b : number i (a ++ b) = number i a ++ number (i + length a) b.
Proof. revert i. induction a; intros i; cbn [number app length]; [rewrite Nat.add_0_r; auto|]. rewrite IHa. cbn. do 3 f_equal. lia. Qed.
Lemma number_fst_in i ts j : In j (map fst (number i ts)) <-> (i <= j < i + length ts)%nat.
Proof. revert i. induction ts; intros i; cbn; [lia|]. rewrite IHts. lia. Qed.
Lemma number_snd i ts : map snd (number i ts) = ts.
Proof. revert i. induction ts; intros i; cbn; f_equal; auto. Qed.
Lemma number_nodup i ts : NoDup (map fst (number i ts)).
Proof. revert i. induction ts; intros i; cbn; constructor; auto. rewrite number_fst_in. lia. Qed.
Lemma number_nth i ts j s : In (j, s) (number i ts) -> nth_error ts (j - i) = Some s.
Proof.
  revert i. induction ts; intros i; cbn; [contradiction|]. intros [E|H].
  - injection E as <- <-. rewrite Nat.sub_diag. auto.
  - pose proof (in_map fst _ _ H) as Hj. cbn in Hj. apply number_fst_in in Hj. replace (j - i)%nat with (S (j - S i)) by lia. cbn. auto.
Qed.
Lemma number_len i ts : len (number i ts) = len ts.
Proof. unfold len. revert i. induction ts; intros i; cbn; auto. specialize (IHts (S i)). lia. Qed.

(* the new array and heap *)
Lemma array_new h ps ts v : (forall i s, In (i, s) ps -> arg h i s) -> NoDup (map fst ps) -> Forall good_str ts -> len ps + len ts < 2^31 ->
  holds v (map fst (ps ++ number (length h) ts)) -> array (h ++ map Some ts) v (ps ++ number (length h) ts).
Proof.
  intros F ND G L H. split; auto. split; [|split].
  - rewrite map_app.
    assert (forall a b : list nat, NoDup a -> NoDup b -> (forall x, In x a -> ~ In x b) -> NoDup (a ++ b)) as NA.
    { clear. induction a as [|x a IH]; intros b Na Nb D; auto. inversion Na; subst. cbn. constructor.
      - intros Hin. apply in_app_or in Hin. destruct Hin; [auto|]. apply (D x); auto. left; auto.
      - apply IH; auto. intros y Hy. apply D. right. auto. }
    apply NA; auto; [apply number_nodup|].
    intros x Hx. apply in_map_iff in Hx. destruct Hx as ((i & s) & <- & Hx). destruct (F i s Hx) as (E & _). rewrite number_fst_in. cbn.
    assert (i < length h)%nat by (apply nth_error_Some; congruence). lia.
  - intros i s Hin. apply in_app_or in Hin. destruct Hin as [Hin|Hin].
    + destruct (F i s Hin) as (E & Gs). split; auto. apply nth_error_app_new. auto.
    + pose proof (in_map fst _ _ Hin) as Hi. cbn in Hi. apply number_fst_in in Hi. apply number_nth in Hin.
      split; [|exact (proj1 (Forall_forall _ _) G s (nth_error_In _ _ Hin))]. rewrite nth_error_app2 by lia. rewrite nth_error_map, Hin. reflexivity.
  - rewrite len_app, number_len. lia.
Qed.

Lemma addv_loop_spec h0 : forall args ts h l x b done,
  h = h0 ++ done -> Forall2 (arg h0) args ts -> len b = len ts -> len l + len ts < 2^31 ->
  addv_loop h (map CPtr l ++ b ++ [x]) (len l) args =
    Ok (h ++ map Some ts, map CPtr (l ++ map fst (number (length h) ts)) ++ [x], len l + len ts).
Proof.
  induction args as [|s args IH]; intros ts h l x b done Hh F2 Lb LL; inversion F2; subst.
  - destruct b as [|c b]; [|rewrite len_cons, len_nil in Lb; pose proof (len_nonneg b); lia]. cbn [addv_loop map number app]. rewrite !app_nil_r. do 2 f_equal. rewrite len_nil. lia.
  - rename y into t, l' into ts. rewrite len_cons in *. pose proof (len_nonneg ts). pose proof (len_nonneg l). destruct b as [|c b]; [rewrite len_nil in Lb; lia|]. rewrite len_cons in Lb.
    cbn [addv_loop]. rewrite (strdup_spec _ s t). 2:{ destruct H1 as (E & G). split; auto. apply nth_error_app_new. auto. }
    cbn [bind]. rewrite <- (len_map CPtr l). cbn [app]. rewrite wr_mid. cbn [bind]. rewrite len_map. rewrite u32_id by (unfold in_u32; lia).
    replace (map CPtr l ++ CPtr (length (h0 ++ done)) :: b ++ [x]) with (map CPtr (l ++ [length (h0 ++ done)]) ++ b ++ [x]) by (rewrite map_app, <- app_assoc; reflexivity).
    replace (len l + 1) with (len (l ++ [length (h0 ++ done)])) by (rewrite len_app; reflexivity).
    rewrite (IH ts _ _ x b (done ++ [Some t])); [|rewrite <- app_assoc; auto|auto|lia|rewrite len_app; change (len [length (h0 ++ done)]) with 1; lia].
    cbn [map number]. rewrite <- !app_assoc. cbn [app]. rewrite (app_length (h0 ++ _)) || idtac. 
    replace (length (h0 ++ done ++ [Some t])) with (S (length (h0 ++ done))) by (rewrite !app_length; cbn; lia).
    do 2 f_equal. rewrite len_app. change (len [length (h0 ++ done)]) with 1. lia.
Qed.

Lemma holds_some v l b : v = Some b -> b = map CPtr l ++ [CNull] -> holds v l.
Proof. intros -> ->. exists []. reflexivity. Qed.

Lemma addv_spec h v ps args ts : array h v ps -> Forall2 (arg h) args ts -> len ps + len ts < 2^31 ->
  exists v', strv_addv h v args = Ok (h ++ map Some ts, v') /\ array (h ++ map Some ts) v' (ps ++ number (length h) ts).
Proof.
  intros A F2 L. pose proof A as (H & ND & F & _). pose proof (len_nonneg ps). destruct F2 as [|s t args ts Hs F2].
  - exists v. cbn [strv_addv map number]. rewrite !app_nil_r. auto.
  - cbn [strv_addv]. rewrite len_cons in L. rewrite (array_length h v ps A). cbn [bind].
    assert (len args = len ts) as La by (clear - F2; induction F2; auto; rewrite !len_cons; lia). pose proof (len_nonneg ts).
    rewrite len_cons, La. rewrite (u32_id (1 + len ts)) by (unfold in_u32; lia). rewrite (u32_id (len ps + (1 + len ts))) by (unfold in_u32; lia). rewrite (u32_id (_ + 1)) by (unfold in_u32; lia).
    destruct (renew_grow v (map fst ps) (1 + len ts + 1) H ltac:(lia)) as (b & Eb & Lb). rewrite len_map in Eb.
    replace (len ps + (1 + len ts) + 1) with (len ps + (1 + len ts + 1)) by lia. rewrite Eb. rewrite (strdup_spec h s t Hs). cbn [bind].
    destruct (len_cons_inv b _ Lb ltac:(lia)) as (x & c & -> & Lc).
    rewrite <- (len_map fst ps), <- (len_map CPtr (map fst ps)). rewrite wr_mid. cbn [bind]. rewrite !len_map. rewrite u32_id by (unfold in_u32; lia).
    assert (exists c0 y, c = c0 ++ [y] /\ len c0 = len ts) as (c0 & y & -> & Lc0).
    { destruct (@exists_last _ c) as (c0 & y & E); [intros ->; rewrite len_nil in Lc; lia|]. exists c0, y. split; auto. rewrite E, len_app in Lc. change (len [y]) with 1 in Lc. lia. }
    replace (map CPtr (map fst ps) ++ CPtr (length h) :: c0 ++ [y]) with (map CPtr (map fst ps ++ [length h]) ++ c0 ++ [y]) by (rewrite map_app, <- app_assoc; reflexivity).
    replace (len ps + 1) with (len (map fst ps ++ [length h])) by (rewrite len_app, len_map; reflexivity).
    rewrite (addv_loop_spec h args ts (h ++ [Some t]) _ y c0 [Some t]); auto; [|rewrite len_app, len_map; change (len [length h]) with 1; lia]. cbn [bind].
    replace (len (map fst ps ++ [length h]) + len ts) with (len (map CPtr ((map fst ps ++ [length h]) ++ map fst (number (length (h ++ [Some t])) ts)))) by (rewrite len_map, !len_app, !len_map, number_len; reflexivity).
    rewrite wr_mid. cbn [bind]. eexists. rewrite <- app_assoc. cbn [map app]. split; [reflexivity|].
    apply (array_new h ps (t :: ts)); auto.
    + constructor; [apply Hs|]. clear - F2. induction F2; constructor; auto. apply H.
    + rewrite len_cons. lia.
    + cbn [number]. rewrite app_length, Nat.add_1_r. eapply holds_some; [reflexivity|]. rewrite (map_app fst). cbn [map fst]. rewrite <- app_assoc. reflexivity.
Qed.

Lemma add_spec h v ps s t : array h v ps -> arg h s t -> len ps + 1 < 2^31 ->
  exists v', strv_add h v (Some s) = Ok (h ++ [Some t], v') /\ array (h ++ [Some t]) v' (ps ++ [(length h, t)]).
Proof.
  intros A Hs L. pose proof A as (H & ND & F & _). pose proof (len_nonneg ps). cbn [strv_add]. rewrite (array_length h v ps A). cbn [bind].
  rewrite !u32_id by (unfold in_u32; lia). destruct (renew_grow v (map fst ps) 2 H ltac:(lia)) as (b & Eb & Lb). rewrite len_map in Eb. rewrite Eb.
  rewrite (strdup_spec h s t Hs). cbn [bind]. destruct (len_cons_inv b _ Lb ltac:(lia)) as (x & c & -> & Lc). destruct (len_cons_inv c _ Lc ltac:(lia)) as (y & d & -> & Ld).
  destruct d as [|? d]; [|rewrite len_cons in Ld; pose proof (len_nonneg d); lia].
  rewrite <- (len_map fst ps), <- (len_map CPtr (map fst ps)). rewrite wr_mid. cbn [bind].
  replace (map CPtr (map fst ps) ++ CPtr (length h) :: [y]) with ((map CPtr (map fst ps) ++ [CPtr (length h)]) ++ [y]) by (rewrite <- app_assoc; reflexivity).
  replace (len (map CPtr (map fst ps)) + 1) with (len (map CPtr (map fst ps) ++ [CPtr (length h)])) by (rewrite len_app; reflexivity).
  rewrite wr_mid. cbn [bind]. eexists. split; [reflexivity|]. apply (array_new h ps [t]); auto.
  - repeat constructor. apply Hs.
  - cbn [number]. eapply holds_some; [reflexivity|]. rewrite !map_app. cbn. reflexivity.
Qed.

(* ---------------- removing ---------------- *)
Lemma frees_array h v ps ps' fs h' v' : array h v ps -> (forall p, In p ps' -> In p ps) -> NoDup (map fst ps') -> (forall i, In i (map fst ps') -> ~ In i fs) -> len ps' <= len ps ->
  holds v' (map fst ps') -> frees h fs h' -> array h' v' ps'.
Proof.
  intros (_ & _ & F & L) I ND D LE H (_ & Fr). split; auto. split; auto. split; [|lia].
  intros i s Hin. destruct (F i s (I _ Hin)) as (E & G). split; auto. rewrite (proj2 (Fr i)); auto. apply D. exact (in_map fst _ _ Hin).
Qed.

Lemma remove_at_spec h v a x t c fr : array h v (a ++ (x, t) :: c) ->
  exists h' v', strv_remove_at h v (len a) fr = Ok (h', v') /\ array h' v' (a ++ c) /\ frees h (if (fr : bool) then [x] else []) h'.
Proof.
  intros A. pose proof A as (H & ND & F & L). pose proof (len_nonneg a). pose proof (len_nonneg c). rewrite len_app, len_cons in L.
  destruct v as [b|]; [|cbn in H; rewrite map_app in H; destruct a; discriminate]. cbn [holds] in H. destruct H as (junk & ->).
  unfold strv_remove_at. rewrite (array_length h _ _ A). cbn [bind]. rewrite s32_id by (unfold in_s32; rewrite len_app, len_cons; lia).
  replace (len a >=? 0) with true by lia. replace (len a <? len (a ++ (x, t) :: c)) with true by (rewrite len_app, len_cons; lia). rewrite map_app in *. cbn [map fst] in *.
  assert (NoDup (map fst (a ++ c))) as ND'. { rewrite map_app. apply NoDup_remove_1 in ND. auto. }
  assert (~ In x (map fst (a ++ c))) as NI. { rewrite map_app. apply NoDup_remove_2 in ND. auto. }
  assert (exists h', drop_str fr h x = Ok h' /\ frees h (if fr then [x] else []) h') as (h' & Ed & Fr).
  { destruct fr; cbn [drop_str].
    - destruct (free_obj_spec h h [] x (frees_nil h)) as (h' & E & Fr); [auto|exists t; apply F; apply in_or_app; right; left; auto|]. exists h'. auto.
    - exists h. split; auto. apply frees_nil. }
  assert (remove_impl u32 (drop_str fr) h (map CPtr (map fst a ++ x :: map fst c) ++ CNull :: junk) (len a) (len (a ++ (x, t) :: c)) = Ok (h', map CPtr (map fst a ++ map fst c) ++ [CNull])) as ER.
  { rewrite <- (len_map fst a). replace (len (a ++ (x, t) :: c)) with (len (map fst a ++ x :: map fst c)) by (rewrite !len_app, !len_cons, !len_map; auto).
    apply remove_impl_spec; auto. intros z Hz. apply u32_id. unfold in_u32. rewrite len_app, len_cons, !len_map in Hz. lia. }
  rewrite ER. cbn [bind]. eexists _, _. split; [reflexivity|]. split; auto.
  eapply frees_array with (ps := a ++ (x, t) :: c); eauto.
  - intros p Hp. apply in_app_or in Hp. apply in_or_app. destruct Hp; [auto|right; right; auto].
  - intros i Hi Hin. destruct fr; [|contradiction]. destruct Hin as [<-|[]]. auto.
  - rewrite !len_app, len_cons. lia.
  - eapply holds_some; [reflexivity|]. rewrite !map_app. auto.
Qed.

(* the state while elements are removed: what is left and what was freed *)
Definition removing (h0 : strs) (l0 : list nat) (h : strs) (l : list nat) : Prop :=
  NoDup l /\ incl l l0 /\ length h = length h0 /\
  forall i, (In i l0 -> ~ In i l -> nth_error h i = Some None) /\ (~ In i l0 \/ In i l -> nth_error h i = nth_error h0 i).

Lemma removing_init h l : NoDup l -> removing h l h l.
Proof. intros ND. split; auto. split; [apply incl_refl|]. split; auto. intros i. split; [tauto|auto]. Qed.

Lemma removing_drop h0 l0 h a x c : (forall i, In i l0 -> is_live h0 i) -> removing h0 l0 h (a ++ x :: c) -> exists h', drop_str true h x = Ok h' /\ removing h0 l0 h' (a ++ c).
Proof.
  intros LV (ND & I & L & F). cbn [drop_str]. unfold free_obj.
  assert (In x l0) as Hx by (apply I; apply in_or_app; right; left; auto). destruct (LV x Hx) as (s & Hs).
  assert (nth_error h x = Some (Some s)) as Hh. { rewrite <- Hs. apply F. right. apply in_or_app. right. left. auto. }
  rewrite Hh. eexists. split; [reflexivity|]. assert (~ In x (a ++ c)) as NI by (apply NoDup_remove_2; auto).
  assert (forall i, In i (a ++ c) <-> In i (a ++ x :: c) /\ i <> x) as EI.
  { intros i. rewrite !in_app_iff. cbn. split.
    - intros Hi. split; [tauto|]. intros ->. apply NI. apply in_or_app. auto.
    - intros ([?|[?|?]] & ?); auto. congruence. }
  split; [eapply NoDup_remove_1; eauto|]. split; [intros i Hi; apply I; apply EI; auto|]. split; [rewrite upd_length; auto|].
  intros i. destruct (Nat.eq_dec x i) as [<-|N].
  - rewrite nth_error_upd_eq by (apply nth_error_Some; congruence). split; auto. intros [?|?]; contradiction.
  - rewrite nth_error_upd_ne by auto. split.
    + intros Hi Hn. apply F; auto. intros Hi2. apply Hn. apply EI. auto.
    + intros Hi. apply F. destruct Hi as [Hi|Hi]; auto. right. apply EI. auto.
Qed.

Lemma removing_frees h0 l0 h l fs : removing h0 l0 h l -> (forall i, In i fs <-> In i l0 /\ ~ In i l) -> frees h0 fs h.
Proof.
  intros (_ & I & L & F) E. split; auto. intros i. rewrite E. split.
  - intros (? & ?). apply F; auto.
  - intros Hn. apply F. destruct (in_dec Nat.eq_dec i l0); auto. right. destruct (in_dec Nat.eq_dec i l); auto. tauto.
Qed.

Lemma removing_content h0 l0 h l t x : removing h0 l0 h l -> In x l -> content_is h t x = content_is h0 t x.
Proof. intros (_ & _ & _ & F) Hx. unfold content_is. rewrite (proj2 (F x)); auto. Qed.

Lemma removing_test scmp h0 v ps h l s t x : good_strcmp scmp -> array h0 v ps -> removing h0 (map fst ps) h l -> arg h s t -> In x l ->
  same scmp h s x = Ok (content_is h0 t x).
Proof.
  intros G A (ND & I & L & F) Hs Hx. destruct (array_arg_fst _ _ _ _ A (I x Hx)) as (a & Hin & (Ha & Ga)).
  rewrite (same_spec scmp h s t x a); auto; [|split; auto; rewrite (proj2 (F x)); auto]. rewrite (content_array h0 v ps t x a); auto.
Qed.

Lemma map_filter_fst h v ps t (neg : bool) : array h v ps -> forall qs, (forall p, In p qs -> In p ps) ->
  map fst (filter (fun p => xorb neg (is_str t p)) qs) = filter (fun x => xorb neg (content_is h t x)) (map fst qs).
Proof.
  intros A qs. induction qs as [|[i s] qs IH]; intros I; auto. cbn [filter map fst]. rewrite (content_array h v ps t i s A) by (apply I; left; auto).
  unfold is_str at 1. cbn [snd]. destruct (xorb neg (str_eqb s t)); cbn [map fst]; rewrite IH; auto; intros p Hp; apply I; right; auto.
Qed.

Lemma NoDup_map_filter {A B} (f : A -> B) (p : A -> bool) l : NoDup (map f l) -> NoDup (map f (filter p l)).
Proof.
  induction l as [|x l IH]; cbn; auto. intros N. inversion N; subst. destruct (p x); auto. cbn. constructor; auto.
  intros Hin. apply H1. apply in_map_iff in Hin. destruct Hin as (y & E & Hy). apply filter_In in Hy. apply in_map_iff. exists y. tauto.
Qed.

Lemma without_first_none t ps : ~ In t (map snd ps) -> without_first t ps = (ps, []).
Proof.
  induction ps as [|[i s] ps IH]; cbn; auto. intros N. unfold is_str. cbn. destruct (str_eqb_spec s t); [tauto|]. rewrite IH by tauto. auto.
Qed.
Lemma without_first_at t a x c : ~ In t (map snd a) -> without_first t (a ++ (x, t) :: c) = (a ++ c, [(x, t)]).
Proof.
  induction a as [|[i s] a IH]; cbn; intros N.
  - unfold is_str. cbn. destruct (str_eqb_spec t t); [auto|congruence].
  - unfold is_str at 1. cbn. destruct (str_eqb_spec s t); [tauto|]. rewrite IH by tauto. auto.
Qed.
Lemma filter_not_in t a : ~ In t (map snd a) -> filter (fun p => negb (is_str t p)) a = a /\ filter (is_str t) a = [].
Proof.
  induction a as [|[i s] a IH]; cbn; auto. intros N. change (is_str t (i, s)) with (str_eqb s t). destruct (str_eqb_spec s t); [tauto|]. cbn.
  destruct IH as (-> & ->); [tauto|auto].
Qed.

Lemma remove_spec scmp h v ps s t all : good_strcmp scmp -> array h v ps -> arg h s t -> (all = true -> ~ In s (map fst ps)) ->
  let (k, d) := if (all : bool) then without t ps else without_first t ps in
  exists h' v', strv_remove scmp h v (Some s) all = Ok (h', v') /\ array h' v' k /\ frees h (map fst d) h'.
Proof.
  intros G A Hs Al. destruct (strv_find_spec scmp h v ps s t G A Hs) as [(E & N)|(a & x & c & -> & N & E)].
  - assert ((if all then without t ps else without_first t ps) = (ps, [])) as ->.
    { destruct all; [|apply without_first_none; auto]. unfold without. destruct (filter_not_in t ps N) as (-> & ->). auto. }
    exists h, v. split; [|split; [auto|apply frees_nil]]. unfold strv_find, strv_remove in *. destruct v as [b|]; auto. rewrite E. reflexivity.
  - pose proof A as (H & ND & F & L). pose proof (len_nonneg a). pose proof (len_nonneg c). rewrite len_app, len_cons in L.
    destruct v as [b|]; [|cbn in H; rewrite map_app in H; destruct a; discriminate]. cbn [holds] in H. destruct H as (junk & ->).
    cbn [strv_find] in E. unfold strv_remove. rewrite E. cbn [bind]. replace (len a >=? 0) with true by lia. rewrite (array_length h _ _ A). cbn [bind].
    set (ps := a ++ (x, t) :: c) in *. assert (map fst ps = map fst a ++ x :: map fst c) as Eps by (unfold ps; rewrite map_app; reflexivity).
    assert (forall i, In i (map fst ps) -> is_live h i) as LV. { intros i Hi. destruct (array_arg_fst _ _ _ _ A Hi) as (s' & _ & (Hl & _)). exists s'. auto. }
    pose proof (removing_init h (map fst ps) ND) as R0. rewrite Eps in R0 at 2. destruct (removing_drop _ _ _ _ _ _ LV R0) as (h1 & Ed & R1).
    assert (remove_impl u32 (drop_str true) h (map CPtr (map fst ps) ++ CNull :: junk) (len a) (len ps) = Ok (h1, map CPtr (map fst a ++ map fst c) ++ [CNull])) as ER.
    { rewrite Eps, <- (len_map fst a). replace (len ps) with (len (map fst a ++ x :: map fst c)) by (rewrite <- Eps, len_map; auto).
      apply remove_impl_spec; auto. intros z Hz. apply u32_id. unfold in_u32. rewrite len_app, len_cons, !len_map in Hz. lia. }
    rewrite ER. cbn [bind]. destruct all.
    + specialize (Al eq_refl). unfold without. rewrite (u32_id (len ps - 1)), (u32_id (len a)) by (unfold in_u32, ps; rewrite ?len_app, ?len_cons; lia).
      replace (len ps - 1 - len a) with (len c) by (unfold ps; rewrite len_app, len_cons; lia). rewrite u32_id, s32_id by (unfold in_u32, in_s32; lia).
      destruct (remove_rest_spec (removing h (map fst ps)) u32 (fun h => same scmp h s) (drop_str true) (content_is h t) (len ps)) with
        (fuel := length (map CPtr (map fst a ++ map fst c) ++ [CNull])) (w := h1) (pre := map fst a) (seg := map fst c) (post := @nil nat) (junk := @nil cell) as (h2 & junk' & E2 & R2).
      * intros z Hz. apply u32_id. unfold in_u32, ps in *. rewrite len_app, len_cons in Hz. lia.
      * intros w l y R Hy. eapply removing_test; eauto. destruct R as (_ & _ & _ & Fr). destruct Hs. split; auto. rewrite (proj2 (Fr s)); auto.
      * intros w a' y c' R Py. eapply removing_drop; eauto.
      * rewrite app_length, !map_length, app_length, !map_length. cbn [length]. lia.
      * rewrite app_nil_r. auto.
      * contradiction.
      * rewrite app_nil_r, len_app, !len_map. unfold ps. rewrite len_app, len_cons. lia.
      * rewrite !app_nil_r in E2. rewrite !len_map in E2. replace (len ps - 1) with (len (map fst a ++ map fst c)) by (unfold ps; rewrite !len_app, len_cons, !len_map; lia).
        change (map CPtr (map fst a ++ map fst c) ++ CNull :: []) with (map CPtr (map fst a ++ map fst c) ++ [CNull]) in E2.
        rewrite E2. cbn [bind]. rewrite app_nil_r in R2.
        assert (map fst a ++ filter (fun x => negb (content_is h t x)) (map fst c) = map fst (filter (fun p => negb (is_str t p)) ps)) as EK.
        { unfold ps. rewrite filter_app. cbn [filter]. unfold is_str at 2. cbn [snd]. destruct (str_eqb_spec t t) as [_|]; [|congruence]. cbn [negb].
          rewrite (proj1 (filter_not_in t a N)), map_app. f_equal. symmetry. apply (map_filter_fst h _ ps t true A). intros p Hp. unfold ps. apply in_or_app. right. right. auto. }
        rewrite EK in *. eexists _, _. split; [reflexivity|].
        assert (frees h (map fst (filter (is_str t) ps)) h2) as Fr.
        { apply (removing_frees _ _ _ _ _ R2). intros i. split.
          - intros Hi. apply in_map_iff in Hi. destruct Hi as ((j & s') & Ej & Hi). cbn in Ej. subst j. apply filter_In in Hi. destruct Hi as (Hi & Es). split; [exact (in_map fst _ _ Hi)|].
            intros Hj. apply in_map_iff in Hj. destruct Hj as ((j & s2) & Ej & Hj). cbn in Ej. subst j. apply filter_In in Hj. destruct Hj as (Hj & Es2).
            destruct (F _ _ Hi) as (Q1 & _). destruct (F _ _ Hj) as (Q2 & _). rewrite Q1 in Q2. injection Q2 as <-. unfold is_str in *. cbn in *. rewrite Es in Es2. discriminate.
          - intros (Hi & Hn). apply in_map_iff in Hi. destruct Hi as ((j & s') & Ej & Hi). cbn in Ej. subst j. apply in_map_iff. exists (i, s'). split; auto. apply filter_In. split; auto.
            destruct (is_str t (i, s')) eqn:Q; auto. exfalso. apply Hn. apply in_map_iff. exists (i, s'). split; auto. apply filter_In. split; auto. rewrite Q. auto. }
        split; [|exact Fr]. eapply frees_array with (ps := ps); eauto.
        -- intros p Hp. apply filter_In in Hp. tauto.
        -- apply NoDup_map_filter. auto.
        -- intros i Hi Hd. apply in_map_iff in Hi. destruct Hi as ((j & s') & Ej & Hi). cbn in Ej. subst j. apply filter_In in Hi. destruct Hi as (Hi & Es).
           apply in_map_iff in Hd. destruct Hd as ((j & s2) & Ej & Hj). cbn in Ej. subst j. apply filter_In in Hj. destruct Hj as (Hj & Es2).
           destruct (F _ _ Hi) as (Q1 & _). destruct (F _ _ Hj) as (Q2 & _). rewrite Q1 in Q2. injection Q2 as <-. unfold is_str in *. cbn in *. rewrite Es2 in Es. discriminate.
        -- clear. unfold len. induction ps as [|p l IH]; cbn [filter length]; [lia|]. destruct (negb _); cbn [length]; lia.
        -- exists junk'. reflexivity.
    + unfold ps. rewrite without_first_at by auto. eexists _, _. split; [reflexivity|]. cbn [map fst].
      assert (frees h [x] h1) as Fr.
      { apply (removing_frees _ _ _ _ _ R1). intros i. rewrite Eps, !in_app_iff. cbn. rewrite Eps in ND. apply NoDup_remove_2 in ND. rewrite in_app_iff in ND. split.
        - intros [<-|[]]. tauto.
        - intros ([?|[?|?]] & Hn); auto; tauto. }
      split; auto. eapply frees_array with (ps := ps); eauto.
      * intros p Hp. unfold ps. apply in_app_or in Hp. apply in_or_app. destruct Hp; [auto|right; right; auto].
      * rewrite map_app. destruct R1. auto.
      * rewrite map_app. intros i Hi [<-|[]]. rewrite Eps in ND. apply NoDup_remove_2 in ND. auto.
      * unfold ps. rewrite !len_app, len_cons. lia.
      * eapply holds_some; [reflexivity|]. rewrite !map_app. auto.
Qed.

(* ---------------- removing duplicates ---------------- *)
Lemma existsb_str s seen : existsb (str_eqb s) seen = true <-> In s seen.
Proof. rewrite existsb_exists. split; [intros (x & H & E); destruct (str_eqb_spec s x); congruence|intros H; exists s; split; auto; destruct (str_eqb_spec s s); congruence]. Qed.
Lemma existsb_ext' s a b : (In s a <-> In s b) -> existsb (str_eqb s) a = existsb (str_eqb s) b.
Proof. intros H. apply eq_true_iff_eq. rewrite !existsb_str. auto. Qed.

Lemma uniq_seen ps : forall a b, (forall s, In s a <-> In s b) -> uniq a ps = uniq b ps.
Proof.
  induction ps as [|p ps IH]; intros a b E; cbn [uniq]; auto. rewrite (existsb_ext' (snd p) a b) by auto. rewrite (IH a b E).
  rewrite (IH (snd p :: a) (snd p :: b)); auto. intros s. cbn. rewrite E. tauto.
Qed.

Lemma uniq_drop q c : forall a seen, In (snd q) seen \/ In (snd q) (map snd a) -> fst (uniq seen (a ++ q :: c)) = fst (uniq seen (a ++ c)).
Proof.
  induction a as [|p a IH]; intros seen Hq; cbn [app uniq].
  - destruct Hq as [Hq|[]]. rewrite (proj2 (existsb_str _ _) Hq). destruct (uniq seen c). auto.
  - cbn in Hq. destruct (existsb (str_eqb (snd p)) seen) eqn:E.
    + apply existsb_str in E. specialize (IH seen). destruct (uniq seen (a ++ q :: c)), (uniq seen (a ++ c)). cbn in *. apply IH. destruct Hq as [?|[<-|?]]; auto.
    + specialize (IH (snd p :: seen)). destruct (uniq _ (a ++ q :: c)), (uniq _ (a ++ c)). cbn in *. f_equal. apply IH. tauto.
Qed.

Lemma uniq_nodup ps : forall seen, NoDup (map snd ps) -> (forall s, In s (map snd ps) -> ~ In s seen) -> uniq seen ps = (ps, []).
Proof.
  induction ps as [|p ps IH]; intros seen ND H; cbn [uniq]; auto. inversion ND; subst. destruct (existsb (str_eqb (snd p)) seen) eqn:E.
  - apply existsb_str in E. exfalso. apply (H (snd p)); auto. left. auto.
  - rewrite IH; auto. intros s Hs [<-|Hin]; auto. apply (H s); auto. right. auto.
Qed.

Lemma uniq_perm ps : forall seen, Permutation ps (fst (uniq seen ps) ++ snd (uniq seen ps)).
Proof.
  induction ps as [|p ps IH]; intros seen; cbn [uniq]; auto. destruct (existsb _ seen).
  - specialize (IH seen). destruct (uniq seen ps) as (k & d). cbn in *. apply Permutation_cons_app. auto.
  - specialize (IH (snd p :: seen)). destruct (uniq _ ps) as (k & d). cbn in *. constructor. auto.
Qed.

(* what is kept while strings are removed *)
Lemma removing_arg h0 v0 ps h cur i s : array h0 v0 ps -> removing h0 (map fst ps) h (map fst cur) -> (forall p, In p cur -> In p ps) -> In (i, s) cur -> arg h i s.
Proof.
  intros A R I H. destruct (array_arg _ _ _ _ _ A (I _ H)) as (E & G). split; auto. destruct R as (_ & _ & _ & F). rewrite (proj2 (F i)); auto.
  right. exact (in_map fst _ _ H).
Qed.

Lemma removing_array h0 v0 ps h cur v : array h0 v0 ps -> removing h0 (map fst ps) h (map fst cur) -> (forall p, In p cur -> In p ps) -> len cur <= len ps -> holds v (map fst cur) -> array h v cur.
Proof.
  intros A R I L H. split; auto. split; [apply R|]. pose proof A as (_ & _ & F & L2). split; [|lia].
  intros i s Hin. eapply removing_arg in Hin; eauto. 
Qed.

Lemma dups_loop_spec scmp h0 v0 ps : good_strcmp scmp -> array h0 v0 ps -> forall fuel h A x t B C junk,
  let cur := A ++ (x, t) :: B ++ C in
  removing h0 (map fst ps) h (map fst cur) -> (forall p, In p cur -> In p ps) -> len cur <= len ps -> fst (uniq [] cur) = fst (uniq [] ps) ->
  NoDup (map snd A) -> (forall s, In s (map snd ((x, t) :: B ++ C)) -> ~ In s (map snd A)) -> ~ In t (map snd C) ->
  (length B + length C + 1 < fuel)%nat ->
  exists h' cur' junk', dups_loop fuel scmp h (map CPtr (map fst cur) ++ CNull :: junk) (len cur) (len A) (1 + len B) = Ok (h', map CPtr (map fst cur') ++ CNull :: junk') /\
    removing h0 (map fst ps) h' (map fst cur') /\ (forall p, In p cur' -> In p ps) /\ len cur' <= len ps /\ cur' = fst (uniq [] ps).
Proof.
  intros G A0. induction fuel as [|fuel IH]; intros h A x t B C junk cur R I LC U NA DA DC Hf; [lia|]. cbn [dups_loop].
  pose proof (len_nonneg A). pose proof (len_nonneg B). pose proof (len_nonneg C). pose proof A0 as (_ & ND0 & F0 & L0).
  assert (len cur = len A + (1 + (len B + len C))) as Lcur by (unfold cur; rewrite len_app, len_cons, len_app; auto).
  replace (len A <? len cur) with true by lia.
  assert (map fst cur = (map fst A ++ [x]) ++ map fst B ++ map fst C) as Ecur by (unfold cur; rewrite map_app; cbn [map fst]; rewrite map_app, <- app_assoc; reflexivity).
  assert (at_ (map CPtr (map fst cur) ++ CNull :: junk) (len A) = Ok (Some x)) as Eat.
  { unfold len. apply at_in. unfold cur. rewrite map_app, nth_error_app2 by (rewrite map_length; lia). rewrite map_length, Nat.sub_diag. reflexivity. }
  rewrite Eat. cbn [bind].
  rewrite u32_id, s32_id by (unfold in_u32, in_s32; lia).
  assert (forall y, In y (map fst B) -> same scmp h x y = Ok (content_is h0 t y)) as T.
  { intros y Hy. eapply removing_test; eauto.
    - eapply removing_arg; eauto. unfold cur. apply in_or_app. right. left. auto.
    - rewrite Ecur. apply in_or_app. right. apply in_or_app. auto. }
  assert (forall y s, In (y, s) B -> content_is h0 t y = str_eqb s t) as CI.
  { intros y s Hy. eapply content_array; eauto. apply I. unfold cur. apply in_or_app. right. right. apply in_or_app. auto. }
  replace (Z.to_nat (1 + len B - 1)) with (length (map fst B)) by (rewrite map_length; unfold len; lia).
  destruct (find_last_spec (same scmp h x) (content_is h0 t) (map fst A ++ [x]) (map fst B) (map fst C) junk T) as [(E & N)|(s1 & y & s2 & EB & Py & N & E)];
    rewrite <- Ecur in E; replace (len (map fst A ++ [x])) with (len A + 1) in E by (rewrite len_app, len_map; reflexivity); rewrite E; cbn [bind].
  - replace (-1 <? 0) with true by lia. rewrite u32_id by (unfold in_u32; lia). rewrite u32_id by (unfold in_u32; lia).
    assert (forall s, In s (map snd (B ++ C)) -> s <> t) as NT.
    { intros s Hs ->. rewrite map_app in Hs. apply in_app_or in Hs. destruct Hs as [Hs|Hs]; auto. apply in_map_iff in Hs. destruct Hs as ((j & s') & Es & Hs). cbn in Es. subst s'.
      specialize (N j (in_map fst _ _ Hs)). rewrite (CI j t Hs) in N. destruct (str_eqb_spec t t); congruence. }
    assert (NoDup (map snd (A ++ [(x, t)]))) as NA'.
    { rewrite map_app. cbn [map snd]. apply NoDup_app_comm || idtac. rewrite <- (rev_involutive (map snd A ++ [t])). apply NoDup_rev. rewrite rev_app_distr. cbn [rev app]. constructor.
      - rewrite <- in_rev. apply DA. left. auto.
      - apply NoDup_rev. auto. }
    destruct (B ++ C) as [|[x' t'] D] eqn:EBC.
    + apply app_eq_nil in EBC. destruct EBC as (-> & ->). change (len (@nil (nat * str))) with 0 in *. destruct fuel; [cbn in Hf; lia|]. cbn [dups_loop]. replace (len A + 1 <? len cur) with false by lia.
      exists h, cur, junk. split; auto. split; auto. split; auto. split; auto. rewrite <- U. unfold cur. cbn [app]. rewrite uniq_nodup; auto.
    + assert (cur = (A ++ [(x, t)]) ++ (x', t') :: D ++ []) as Ec by (unfold cur; rewrite <- app_assoc, app_nil_r; reflexivity).
      assert (len cur - (len A + 1) = 1 + len D) as EL by (rewrite Ec, len_app, len_cons, len_app; change (len [(x, t)]) with 1; rewrite app_nil_r; lia). rewrite EL.
      replace (len A + 1) with (len (A ++ [(x, t)])) by (rewrite len_app; reflexivity). clearbody cur. subst cur. apply IH; auto.
      * intros s Hs. rewrite app_nil_r in Hs. rewrite map_app. intros Hin. apply in_app_or in Hin. destruct Hin as [Hin|[<-|[]]].
        -- revert Hin. apply DA. cbn [map]. right. auto.
        -- apply (NT t); auto.
      * apply (f_equal (@length _)) in EBC. rewrite app_length in EBC. cbn [length] in *. lia.
  - replace (len s1 <? 0) with false by (pose proof (len_nonneg s1); lia). 
    apply map_app_inv in EB. destruct EB as (b1 & b2 & -> & Es1 & Er). apply map_cons_inv in Er. destruct Er as ((y' & s') & b3 & -> & Ey & Es2). cbn in Ey. subst y'.
    rewrite (CI y s') in Py by (apply in_or_app; right; left; auto). destruct (str_eqb_spec s' t) as [->|]; [|discriminate].
    subst s1 s2. rewrite len_map. pose proof (len_nonneg b1). pose proof (len_nonneg b3). rewrite len_app, len_cons in *.
    assert (forall i, In i (map fst ps) -> is_live h0 i) as LV. { intros i Hi. destruct (array_arg_fst _ _ _ _ A0 Hi) as (s' & _ & (Hl & _)). exists s'. auto. }
    assert (map fst cur = map fst (A ++ (x, t) :: b1) ++ y :: map fst (b3 ++ C)) as Ecur2.
    { unfold cur. rewrite !map_app. cbn [map fst]. rewrite !map_app. cbn [map fst]. repeat (rewrite <- !app_assoc; cbn [app]). reflexivity. }
    rewrite Ecur2 in R. destruct (removing_drop _ _ _ _ _ _ LV R) as (h1 & Ed & R1). rewrite <- map_app in R1.
    rewrite u32_id by (unfold in_u32; lia).
    assert (remove_impl u32 (drop_str true) h (map CPtr (map fst cur) ++ CNull :: junk) (len A + 1 + len b1) (len cur) = Ok (h1, map CPtr (map fst ((A ++ (x, t) :: b1) ++ b3 ++ C)) ++ [CNull])) as ER.
    { replace (len A + 1 + len b1) with (len (map fst (A ++ (x, t) :: b1))) by (rewrite len_map, len_app, len_cons; lia). rewrite <- (len_map fst cur). rewrite Ecur2.
      rewrite (map_app fst (A ++ (x, t) :: b1) (b3 ++ C)). apply remove_impl_spec; auto. intros z Hz. apply u32_id. unfold in_u32. rewrite <- Ecur2, len_map in Hz. lia. }
    rewrite ER. cbn [bind]. rewrite (u32_id (len cur - 1)) by (unfold in_u32; lia). rewrite (u32_id (len b1 + 1)) by (unfold in_u32; lia).
    assert ((A ++ (x, t) :: b1) ++ b3 ++ C = A ++ (x, t) :: b1 ++ b3 ++ C) as E2 by (rewrite <- app_assoc; reflexivity). rewrite E2 in *.
    replace (len cur - 1) with (len (A ++ (x, t) :: b1 ++ b3 ++ C)) by (rewrite len_app, len_cons, !len_app; lia). replace (len b1 + 1) with (1 + len b1) by lia.
    assert (forall p, In p (A ++ (x, t) :: b1 ++ b3 ++ C) -> In p cur) as I2.
    { intros p Hp. unfold cur. apply in_app_or in Hp. apply in_or_app. destruct Hp as [?|[?|Hp]]; [auto|right; left; auto|]. right. right.
      apply in_app_or in Hp. rewrite <- app_assoc. apply in_or_app. destruct Hp; auto. right. right. auto. }
    apply IH; auto.
    + rewrite len_app, len_cons, !len_app. lia.
    + rewrite <- U. unfold cur. rewrite <- app_assoc. cbn [app].
      replace (A ++ (x, t) :: b1 ++ b3 ++ C) with ((A ++ (x, t) :: b1) ++ b3 ++ C) by auto.
      replace (A ++ (x, t) :: b1 ++ (y, t) :: b3 ++ C) with ((A ++ (x, t) :: b1) ++ (y, t) :: b3 ++ C) by (rewrite <- app_assoc; auto). symmetry. apply uniq_drop.
      right. rewrite map_app. apply in_or_app. right. left. auto.
    + intros s Hs. apply DA. cbn [map] in *. destruct Hs as [?|Hs]; [left; auto|right]. rewrite <- app_assoc. rewrite map_app in *. apply in_app_or in Hs. apply in_or_app. destruct Hs; auto. right. right. auto.
    + rewrite map_app. intros Hin. apply in_app_or in Hin. destruct Hin as [Hin|Hin]; auto. apply in_map_iff in Hin. destruct Hin as ((j & s') & Es & Hs). cbn in Es. subst s'.
      specialize (N j (in_map fst _ _ Hs)). rewrite (CI j t) in N by (apply in_or_app; right; right; auto). destruct (str_eqb_spec t t); congruence.
    + rewrite app_length in *. cbn [length] in Hf. lia.
Qed.

Lemma NoDup_app_l {A} (a b : list A) : NoDup (a ++ b) -> NoDup a.
Proof. induction a; cbn; intros N; [constructor|]. inversion N; subst. constructor; auto. intros H. apply H1. apply in_or_app. auto. Qed.

Lemma remove_dups_spec scmp h v ps : good_strcmp scmp -> array h v ps ->
  exists h' v', strv_remove_dups scmp h v = Ok (h', v') /\ array h' v' (fst (uniq [] ps)) /\ frees h (map fst (snd (uniq [] ps))) h'.
Proof.
  intros G A. destruct v as [b|].
  2:{ destruct A as (H & R). cbn in H. destruct ps; [|discriminate]. cbn. exists h, None. split; auto. split; [split; [reflexivity|]; auto|apply frees_nil]. }
  pose proof A as ((junk & ->) & ND & F & L). cbn [strv_remove_dups]. rewrite (array_length h _ ps A). cbn [bind]. destruct ps as [|[x t] B].
  - cbn [map app len length dups_loop]. replace (Z.of_nat 0 <? Z.of_nat 0) with false by lia. replace (0 <? Z.of_nat 0) with false by lia. cbn [bind]. exists h, (Some (CNull :: junk)). split; [reflexivity|]. cbn. split; [exact A|apply frees_nil].
  - destruct (dups_loop_spec scmp h _ _ G A (S (length (map CPtr (map fst ((x, t) :: B)) ++ CNull :: junk))) h [] x t B [] junk) as (h' & cur' & junk' & E & R & I & LE & EC).
    + cbn [app]. rewrite app_nil_r. apply removing_init. auto.
    + cbn [app]. rewrite app_nil_r. auto.
    + cbn [app]. rewrite app_nil_r. lia.
    + cbn [app]. rewrite app_nil_r. auto.
    + constructor.
    + auto.
    + auto.
    + rewrite app_length, !map_length. cbn [length]. lia.
    + cbn [app] in E. rewrite app_nil_r in E. change (len []) with 0 in E. rewrite len_cons. rewrite len_cons in E. rewrite E. cbn [bind]. eexists _, _. split; [reflexivity|]. subst cur'.
      split.
      * eapply removing_array; eauto. exists junk'. auto.
      * apply (removing_frees _ _ _ _ _ R). pose proof (uniq_perm ((x, t) :: B) []) as P. intros i.
        pose proof (Permutation_map fst P) as PM. rewrite map_app in PM. pose proof (Permutation_NoDup PM ND) as NDP. split.
        -- intros Hi. split; [eapply Permutation_in; [symmetry; exact PM|]; apply in_or_app; auto|]. intros Hk. clear - NDP Hi Hk.
           induction (map fst (fst (uniq [] ((x, t) :: B)))) as [|y k IH]; [contradiction|]. cbn in NDP. inversion NDP; subst. destruct Hk as [->|Hk]; auto. apply H1. apply in_or_app. auto.
        -- intros (Hi & Hn). pose proof (Permutation_in _ PM Hi) as Hi2. apply in_app_or in Hi2. destruct Hi2; [contradiction|auto].
Qed.

(* ---------------- comparing ---------------- *)
Lemma common_loop_spec l1 j1 l2 j2 : len l1 < 2^31 -> len l2 < 2^31 -> forall fuel n, (Z.to_nat (len l1 - n) < fuel)%nat -> 0 <= n <= len l1 -> n <= len l2 ->
  common_loop fuel (map CPtr l1 ++ CNull :: j1) (map CPtr l2 ++ CNull :: j2) n = Ok (Z.min (len l1) (len l2)).
Proof.
  intros L1 L2. induction fuel; intros n Hf H1 H2; [lia|]. cbn [common_loop]. destruct (Z.eq_dec n (len l1)) as [->|N1].
  - rewrite at_end. cbn [bind]. f_equal. lia.
  - destruct (nth_error l1 (Z.to_nat n)) as [x|] eqn:E1. 2:{ apply nth_error_None in E1. unfold len in *. lia. }
    rewrite <- (Z2Nat.id n) at 1 by lia. rewrite (at_in l1 j1 _ x E1). cbn [bind]. destruct (Z.eq_dec n (len l2)) as [->|N2].
    + rewrite at_end. cbn [bind]. f_equal. lia.
    + destruct (nth_error l2 (Z.to_nat n)) as [y|] eqn:E2. 2:{ apply nth_error_None in E2. unfold len in *. lia. }
      rewrite <- (Z2Nat.id n) at 1 by lia. rewrite (at_in l2 j2 _ y E2). cbn [bind]. rewrite u32_id by (unfold in_u32; lia). apply IHfuel; lia.
Qed.

Lemma equal_loop_spec scmp h j1 j2 : good_strcmp scmp -> forall q1 q2 (p1 p2 : list nat), length q1 = length q2 -> length p1 = length p2 ->
  (forall i s, In (i, s) q1 -> arg h i s) -> (forall i s, In (i, s) q2 -> arg h i s) ->
  equal_loop (length q1) scmp h (map CPtr (p1 ++ map fst q1) ++ CNull :: j1) (map CPtr (p2 ++ map fst q2) ++ CNull :: j2) (len p1) =
    Ok (if list_eq_dec (list_eq_dec Z.eq_dec) (map snd q1) (map snd q2) then true else false).
Proof.
  intros G. induction q1 as [|[x a] q1 IH]; intros [|[y b] q2] p1 p2 LQ LP F1 F2; try discriminate; [reflexivity|]. cbn [length equal_loop map fst snd].
  assert (forall (p : list nat) z q j, at_ (map CPtr (p ++ z :: q) ++ CNull :: j) (len p) = Ok (Some z)) as AT.
  { intros. unfold len. apply at_in. rewrite nth_error_app2 by lia. rewrite Nat.sub_diag. reflexivity. }
  rewrite AT. cbn [bind]. replace (len p1) with (len p2) at 1 by (unfold len; lia). rewrite AT. cbn [bind].
  destruct (F1 x a (or_introl eq_refl)) as (Ha & Ga). destruct (F2 y b (or_introl eq_refl)) as (Hb & Gb). unfold look. rewrite Ha, Hb. cbn [bind].
  rewrite (scmp_eq scmp a b G Ga Gb). destruct (str_eqb_spec a b) as [->|N]; cbn [negb].
  - replace (p1 ++ x :: map fst q1) with ((p1 ++ [x]) ++ map fst q1) by (rewrite <- app_assoc; auto). replace (p2 ++ y :: map fst q2) with ((p2 ++ [y]) ++ map fst q2) by (rewrite <- app_assoc; auto).
    replace (len p1 + 1) with (len (p1 ++ [x])) by (rewrite len_app; auto). rewrite IH; [|cbn in LQ; lia|rewrite !app_length; cbn; lia|intros; apply F1; right; auto|intros; apply F2; right; auto].
    f_equal. destruct (list_eq_dec _ (map snd q1)), (list_eq_dec _ (b :: _)); congruence.
  - f_equal. destruct (list_eq_dec _ (a :: _)); congruence.
Qed.

Lemma equal_spec scmp h a1 v1 a2 v2 ps1 ps2 : good_strcmp scmp -> array h v1 ps1 -> array h v2 ps2 -> (a1 = a2 -> v1 = v2) ->
  exists r, strv_equal scmp h a1 v1 a2 v2 = Ok r /\ (r = true <-> map snd ps1 = map snd ps2).
Proof.
  intros G A1 A2 Ad. pose proof A1 as (H1 & _ & F1 & L1). pose proof A2 as (H2 & _ & F2 & L2). pose proof (len_nonneg ps1). pose proof (len_nonneg ps2).
  assert (forall junk, at_ (CNull :: junk) 0 = Ok None) as Z0 by reflexivity.
  assert (forall n l, at_ (CPtr n :: l) 0 = Ok (Some n)) as Z1 by reflexivity.
  destruct v1 as [b1|], v2 as [b2|]; cbn [holds] in *; cbn [strv_equal].
  - destruct H1 as (j1 & ->). destruct H2 as (j2 & ->). destruct (Z.eqb_spec a1 a2) as [E|N].
    + exists true. split; auto. split; auto. intros _. specialize (Ad E). injection Ad as Ad. f_equal.
      assert (map fst ps1 = map fst ps2) as EF.
      { clear - Ad. revert Ad. generalize (map fst ps1) (map fst ps2). induction l as [|x l IH]; intros [|y l2]; cbn; try discriminate; auto. intros E. injection E as <- E. f_equal. auto. }
      clear - EF F1 F2. revert ps2 EF F2. induction ps1 as [|[i s] q1 IH]; intros [|[j r] q2] EF F2; try discriminate; auto. injection EF as <- EF. f_equal.
      * destruct (F1 i s (or_introl eq_refl)) as (X & _). destruct (F2 i r (or_introl eq_refl)) as (Y & _). congruence.
      * apply IH; auto; intros; [apply F1|apply F2]; right; auto.
    + rewrite (common_loop_spec (map fst ps1) j1 (map fst ps2) j2); rewrite ?len_map; try lia; [|rewrite app_length, map_length, map_length; unfold len; lia]. cbn [bind].
      assert (forall (l : list nat) j k, 0 <= k < len l -> exists x, at_ (map CPtr l ++ CNull :: j) k = Ok (Some x)) as AT.
      { intros l j k Hk. destruct (nth_error l (Z.to_nat k)) as [x|] eqn:E. 2:{ apply nth_error_None in E. unfold len in *. lia. } exists x. rewrite <- (Z2Nat.id k) by lia. apply at_in. auto. }
      destruct (Z.lt_trichotomy (len ps1) (len ps2)) as [LL|[LL|LL]].
      * rewrite Z.min_l by lia. rewrite <- (len_map fst ps1). rewrite at_end. cbn [bind]. destruct (AT (map fst ps2) j2 (len (map fst ps1))) as (y & ->); [rewrite !len_map; lia|]. cbn [bind].
        exists false. split; auto. split; [discriminate|]. intros E. apply (f_equal len) in E. rewrite !len_map in E. lia.
      * rewrite Z.min_l by lia. rewrite <- (len_map fst ps1). rewrite at_end. cbn [bind]. replace (len (map fst ps1)) with (len (map fst ps2)) by (rewrite !len_map; auto). rewrite at_end. cbn [bind].
        eexists. split; [replace (Z.to_nat (len (map fst ps2))) with (length ps1) by (rewrite len_map, <- LL; unfold len; lia); apply (equal_loop_spec scmp h j1 j2 G ps1 ps2 [] []); auto; unfold len in LL; lia|].
        destruct (list_eq_dec _ _ _); split; auto; discriminate.
      * rewrite Z.min_r by lia. destruct (AT (map fst ps1) j1 (len ps2)) as (y & ->); [rewrite !len_map; lia|]. cbn [bind].
        exists false. split; auto. split; [discriminate|]. intros E. apply (f_equal len) in E. rewrite !len_map in E. lia.
  - destruct H1 as (j1 & ->). destruct ps2; [|discriminate]. destruct ps1 as [|[i s] q1]; cbn [map app fst]; [rewrite Z0|rewrite Z1]; cbn [bind]; eexists; (split; [reflexivity|]); split; auto; discriminate.
  - destruct H2 as (j2 & ->). destruct ps1; [|discriminate]. destruct ps2 as [|[i s] q1]; cbn [map app fst]; [rewrite Z0|rewrite Z1]; cbn [bind]; eexists; (split; [reflexivity|]); split; auto; discriminate.
  - destruct ps1, ps2; try discriminate. exists true. split; auto. split; auto.
Qed.

(* ---------------- sorting ---------------- *)
Lemma elements_spec h junk : forall ps, (forall i s, In (i, s) ps -> arg h i s) -> elements h (map CPtr (map fst ps) ++ CNull :: junk) (length ps) = Ok (map fst ps).
Proof.
  induction ps as [|[i s] ps IH]; intros F; auto. cbn [length elements map app fst as_ptr bind]. destruct (F i s (or_introl eq_refl)) as (E & _).
  unfold look. rewrite E. cbn [bind]. rewrite IH by (intros; apply F; right; auto). reflexivity.
Qed.

Lemma str_order_sgn scmp asc a b : good_strcmp scmp -> good_str a -> good_str b -> Z.sgn (str_order scmp asc a b) = sign_of (if (asc : bool) then lexc a b else lexc b a).
Proof. intros G Ga Gb. destruct (G a b Ga Gb) as (E & _). unfold str_order. destruct asc; auto. rewrite Z.sgn_opp, E, (lexc_opp a b). destruct (lexc a b); auto. Qed.

Lemma order_le scmp asc a b : good_strcmp scmp -> good_str a -> good_str b -> (str_order scmp asc a b <= 0 <-> in_order asc a b).
Proof.
  intros G Ga Gb. pose proof (str_order_sgn scmp asc a b G Ga Gb) as S. unfold in_order. destruct asc.
  - destruct (lexc a b); cbn [sign_of CompOpp] in S; split; intros; try lia; congruence.
  - rewrite (lexc_opp a b) in S. destruct (lexc a b); cbn [sign_of CompOpp] in S; split; intros; try lia; congruence.
Qed.

Lemma lexc_le_trans a b c : lexc a b <> Gt -> lexc b c <> Gt -> lexc a c <> Gt.
Proof.
  intros H1 H2. destruct (lexc a b) eqn:E1; [apply lexc_eq in E1; subst; auto| |congruence].
  destruct (lexc b c) eqn:E2; [apply lexc_eq in E2; subst; congruence| |congruence]. rewrite (lexc_trans a b c); auto; discriminate.
Qed.
Lemma in_order_trans asc a b c : in_order asc a b -> in_order asc b c -> in_order asc a c.
Proof.
  unfold in_order. destruct asc; [apply lexc_le_trans|]. rewrite (lexc_opp b a), (lexc_opp c b), (lexc_opp c a). intros H1 H2 H3.
  apply (lexc_le_trans c b a); [destruct (lexc c b); cbn in *; congruence|destruct (lexc b a); cbn in *; congruence|destruct (lexc c a); cbn in *; congruence].
Qed.

Lemma sort_spec qsort scmp h v ps asc : good_qsort qsort -> good_strcmp scmp -> array h v ps ->
  exists v' ps', strv_sort qsort scmp h v asc = Ok v' /\ array h v' ps' /\ Permutation ps ps' /\ StronglySorted (in_order asc) (map snd ps').
Proof.
  intros Q G A. pose proof A as (H & ND & F & L). pose proof (len_nonneg ps). unfold strv_sort. rewrite (array_length h v ps A). cbn [bind].
  destruct (Z.gtb_spec (len ps) 0) as [HP|HP].
  2:{ destruct ps; [|rewrite len_cons in *; pose proof (len_nonneg ps); lia]. exists v, []. split; auto. split; auto. split; constructor. }
  destruct v as [b|]; [|cbn in H; destruct ps; [cbn in HP; lia|discriminate]]. destruct H as (junk & ->).
  replace (Z.to_nat (len ps)) with (length ps) by (unfold len; lia). rewrite elements_spec by auto. cbn [bind].
  set (cmp := fun x y => str_order scmp asc (content h x) (content h y)).
  assert (forall x, In x (map fst ps) -> good_str (content h x)) as GS.
  { intros x Hx. destruct (array_arg_fst _ _ _ _ A Hx) as (s & _ & (E & Gs)). unfold content. rewrite E. auto. }
  assert (consistent cmp (map fst ps)) as C.
  { intros x y z Hx Hy Hz. pose proof (GS x Hx). pose proof (GS y Hy). pose proof (GS z Hz). split.
    - unfold cmp. pose proof (str_order_sgn scmp asc (content h x) (content h y) G) as S1. pose proof (str_order_sgn scmp asc (content h y) (content h x) G) as S2.
      specialize (S1 ltac:(auto) ltac:(auto)). specialize (S2 ltac:(auto) ltac:(auto)).
      rewrite (lexc_opp (content h x) (content h y)) in *. destruct asc, (lexc (content h x) (content h y)); cbn [sign_of CompOpp] in *; lia.
    - unfold cmp. rewrite !order_le by auto. apply in_order_trans. }
  destruct (Q cmp (map fst ps) C) as (P & SS).
  destruct (Permutation_map_inv fst ps (Permutation_sym P)) as (ps' & E & P').
  exists (Some (map CPtr (qsort cmp (map fst ps)) ++ skipn (length ps) (map CPtr (map fst ps) ++ CNull :: junk))), ps'.
  split; [reflexivity|]. assert (forall p, In p ps' -> In p ps) as I' by (intros p Hp; eapply Permutation_in; [symmetry; exact P'|auto]).
  split; [|split; auto].
  - split; [|split; [|split]].
    + exists junk. rewrite E. f_equal. rewrite skipn_app, skipn_all2 by (rewrite !map_length; auto). rewrite !map_length, Nat.sub_diag. reflexivity.
    + rewrite <- E. eapply Permutation_NoDup; [exact P|auto].
    + intros i s Hi. apply F. auto.
    + unfold len. rewrite <- (Permutation_length P'). exact L.
  - rewrite E in SS. clear - SS I' F G. induction ps' as [|[i s] ps' IH]; [constructor|]. cbn [map fst snd] in *. inversion SS as [|? ? S1 S2]; subst. constructor.
    + apply IH; auto. intros; apply I'; right; auto.
    + apply Forall_forall. intros r Hr. apply in_map_iff in Hr. destruct Hr as ((j & r') & Er & Hr). cbn in Er. subst r'.
      rewrite Forall_forall in S2. specialize (S2 j (in_map fst _ _ Hr)). unfold cmp, content in S2.
      destruct (F i s (I' _ (or_introl eq_refl))) as (E1 & G1). destruct (F j r (I' _ (or_intror Hr))) as (E2 & G2). rewrite E1, E2 in S2. apply order_le in S2; auto.
Qed.

(* ---------------- searching in a sorted array ---------------- *)
Lemma sorted_nth {A} (R : A -> A -> Prop) l i j a b : StronglySorted R l -> nth_error l i = Some a -> nth_error l j = Some b -> (i < j)%nat -> R a b.
Proof.
  intros H. revert i j. induction H as [|x l H IH F]; intros i j Ea Eb Hij; [destruct i; discriminate|].
  destruct j; [lia|]. cbn in Eb. destruct i.
  - cbn in Ea. injection Ea as <-. rewrite Forall_forall in F. apply F. eapply nth_error_In; eauto.
  - cbn in Ea. eapply IH; eauto. lia.
Qed.

Lemma bsearch_spec scmp h v ps s t asc : good_strcmp scmp -> array h v ps -> arg h s t -> StronglySorted (in_order asc) (map snd ps) ->
  (strv_bsearch scmp h v (Some s) asc = Ok (-1) /\ ~ In t (map snd ps)) \/
  (exists i, strv_bsearch scmp h v (Some s) asc = Ok i /\ 0 <= i /\ nth_error (map snd ps) (Z.to_nat i) = Some t).
Proof.
  intros G A (Hs & Gs) SS. pose proof A as (H & ND & F & L). pose proof (len_nonneg ps). unfold strv_bsearch. rewrite (array_length h v ps A). cbn [bind].
  destruct (Z.gtb_spec (len ps) 0) as [HP|HP].
  2:{ left. split; auto. destruct ps as [|? qs]; [auto|exfalso; rewrite len_cons in *; pose proof (len_nonneg qs); lia]. }
  destruct v as [b|]; [|cbn in H; destruct ps; [cbn in HP; lia|discriminate]]. destruct H as (junk & ->). assert (look h s = Ok t) as -> by (unfold look; rewrite Hs; auto).
  set (cmp := fun x => do a <- look h x; Ok (str_order scmp asc t a)). change (bind (Ok t) ?f) with (f t). cbv beta. fold cmp.
  assert (forall fuel lo hi, (Z.to_nat (hi - lo) < fuel)%nat -> 0 <= lo <= hi -> hi <= len ps ->
    (forall k, 0 <= k < lo \/ hi <= k -> nth_error (map snd ps) (Z.to_nat k) <> Some t) ->
    (bsearch_loop fuel cmp (map CPtr (map fst ps) ++ CNull :: junk) lo hi = Ok (-1) /\ ~ In t (map snd ps)) \/
    (exists i, bsearch_loop fuel cmp (map CPtr (map fst ps) ++ CNull :: junk) lo hi = Ok i /\ 0 <= i < len ps /\ nth_error (map snd ps) (Z.to_nat i) = Some t)) as BS.
  { induction fuel as [|fuel IH]; intros lo hi Hf Hlo Hhi N; [lia|]. cbn [bsearch_loop]. destruct (Z.ltb_spec lo hi) as [LH|LH].
    - set (i := (lo + hi) / 2) in *. assert (lo <= i < hi) as Hi by (unfold i; lia). clearbody i.
      destruct (nth_error ps (Z.to_nat i)) as [(x & a)|] eqn:E. 2:{ apply nth_error_None in E. unfold len in *. lia. }
      assert (nth_error (map fst ps) (Z.to_nat i) = Some x) as E1 by (rewrite nth_error_map, E; auto).
      assert (nth_error (map snd ps) (Z.to_nat i) = Some a) as E2 by (rewrite nth_error_map, E; auto).
      pose proof (at_in _ junk _ _ E1) as AT. rewrite Z2Nat.id in AT by lia. rewrite AT. cbn [bind]. destruct (F x a (nth_error_In _ _ E)) as (Ex & Ga).
      unfold cmp at 1 4. unfold look. rewrite Ex. cbn [bind]. pose proof (str_order_sgn scmp asc t a G Gs Ga) as Sg.
      destruct (Z.ltb_spec (str_order scmp asc t a) 0); [|destruct (Z.gtb_spec (str_order scmp asc t a) 0)].
      + apply IH; try lia. intros k Hk. destruct (Z.lt_ge_cases k lo) as [K|K]; [apply N; lia|]. intros Ek. assert (in_order asc a t) as O.
        { destruct (Z.eq_dec k i) as [->|Ni]; [|eapply (sorted_nth _ _ (Z.to_nat i) (Z.to_nat k)); eauto; lia].
          rewrite E2 in Ek. injection Ek as ->. unfold in_order. rewrite lexc_refl. destruct asc; discriminate. }
        unfold in_order in O. rewrite (lexc_opp a t) in Sg. destruct asc, (lexc a t); cbn [sign_of CompOpp] in *; try lia; congruence.
      + apply IH; try lia. intros k Hk. destruct (Z.lt_ge_cases k hi) as [K|K]; [|apply N; lia]. intros Ek. assert (in_order asc t a) as O.
        { destruct (Z.eq_dec k i) as [->|Ni]; [|eapply (sorted_nth _ _ (Z.to_nat k) (Z.to_nat i)); eauto; lia].
          rewrite E2 in Ek. injection Ek as ->. unfold in_order. rewrite lexc_refl. destruct asc; discriminate. }
        unfold in_order in O. rewrite (lexc_opp t a) in Sg. destruct asc, (lexc t a); cbn [sign_of CompOpp] in *; try lia; congruence.
      + right. exists i. split; auto. split; [lia|]. rewrite E2. f_equal. rewrite (lexc_opp a t) in Sg. destruct (lexc a t) eqn:EL; [apply lexc_eq; auto| |]; destruct asc; cbn [sign_of CompOpp] in Sg; lia.
    - left. split; auto. intros Hin. apply In_nth_error in Hin. destruct Hin as (k & Ek). apply (N (Z.of_nat k)); [lia|]. rewrite Nat2Z.id. auto. }
  destruct (BS (S (Z.to_nat (len ps))) 0 (len ps)) as [(E & N)|(i & E & Hi & Ei)]; try lia.
  - intros k [Hk|Hk]; [lia|]. intros Ek. assert (Z.to_nat k < length (map snd ps))%nat by (apply nth_error_Some; congruence). rewrite map_length in *. unfold len in *. lia.
  - left. rewrite E. split; auto.
  - right. exists i. rewrite E. cbn [bind]. rewrite s32_id by (unfold in_s32; lia). split; auto. split; [lia|auto].
Qed.

(* ---------------- white space ---------------- *)
Lemma is_space_white c : is_space c = true <-> white c.
Proof. unfold is_space, white. lia. Qed.

Lemma chug_spec s : exists pre, s = pre ++ chug s /\ Forall white pre /\ (forall c t, chug s = c :: t -> ~ white c).
Proof.
  induction s as [|c s (pre & E & W & N)]; [exists []; repeat split; auto; discriminate|]. cbn [chug]. destruct (is_space c) eqn:S.
  - exists (c :: pre). split; [cbn; f_equal; auto|]. split; auto. constructor; auto. apply is_space_white. auto.
  - exists []. split; auto. split; auto. intros d t Ed. injection Ed as <- <-. rewrite <- is_space_white. congruence.
Qed.

Lemma chomp_spec : forall n s, n = length s -> exists r post, chomp_loop n s = Ok r /\ s = r ++ post /\ Forall white post /\ (forall c t, r = t ++ [c] -> ~ white c).
Proof.
  induction n as [|n IH]; intros s Hn.
  - destruct s; [|discriminate]. exists [], []. repeat split; auto. intros c t E. destruct t; discriminate.
  - cbn [chomp_loop]. destruct (@exists_last _ s) as (q & c & ->); [intros ->; discriminate|]. rewrite app_length in Hn. cbn in Hn. assert (n = length q) as -> by lia.
    rewrite (proj2 (rd_ok _ _ c)); [|split; [lia|]; rewrite Nat2Z.id, nth_error_app2, Nat.sub_diag by lia; reflexivity]. cbn [bind]. destruct (is_space c) eqn:S.
    + replace (firstn (length q) (q ++ [c])) with q by (rewrite firstn_app, Nat.sub_diag, firstn_all; cbn; rewrite app_nil_r; auto).
      destruct (IH q eq_refl) as (r & post & E & Eq & W & N). exists r, (post ++ [c]). split; auto. split; [rewrite Eq at 1; rewrite <- app_assoc; auto|]. split; auto.
      apply Forall_app. split; auto. constructor; auto. apply is_space_white. auto.
    + exists (q ++ [c]), []. split; auto. split; [rewrite app_nil_r; auto|]. split; auto. intros d t E. apply app_inj_tail in E. destruct E as (_ & <-). rewrite <- is_space_white. congruence.
Qed.

Lemma strstrip_spec s : exists r, strstrip s = Ok r /\ stripped s r.
Proof.
  unfold strstrip. destruct (chug_spec s) as (pre & E & W & N). destruct (chomp_spec (length (chug s)) (chug s) eq_refl) as (r & post & Er & E2 & W2 & N2).
  exists r. split; auto. exists pre, post. split; [congruence|]. split; auto. split; auto. split; auto. intros c t Ec. apply (N c (t ++ post)). rewrite E2, Ec. auto.
Qed.

Lemma strip_spec h v ps : strings h v ps ->
  exists h' ps', strv_strip h v = Ok h' /\ strings h' v ps' /\ Forall2 (fun p q => fst p = fst q /\ stripped (snd p) (snd q)) ps ps' /\
    length h' = length h /\ forall i, ~ In i (map fst ps) -> nth_error h' i = nth_error h i.
Proof.
  intros A. pose proof A as (H & ND & F). destruct v as [b|].
  2:{ cbn in H. destruct ps; [|discriminate]. exists h, []. cbn. split; auto. }
  destruct H as (junk & ->). cbn [strv_strip]. set (f := fun (h : strs) x => do s <- look h x; do s <- strstrip s; Ok (upd h x (Some s))).
  assert (forall qs g, NoDup (map fst qs) -> (forall i s, In (i, s) qs -> arg g i s) -> exists h' ps', walk f g (map CPtr (map fst qs) ++ CNull :: junk) = Ok h' /\
    Forall2 (fun p q => fst p = fst q /\ stripped (snd p) (snd q)) qs ps' /\ (forall i s, In (i, s) ps' -> arg h' i s) /\ length h' = length g /\
    forall i, ~ In i (map fst qs) -> nth_error h' i = nth_error g i) as W.
  { clear. induction qs as [|[x s] qs IH]; intros g ND F.
    - exists g, []. cbn. repeat split; auto; contradiction.
    - cbn [map fst app walk as_ptr bind] in *. inversion ND; subst. destruct (F x s (or_introl eq_refl)) as (E & G). unfold f at 1. unfold look. rewrite E. cbn [bind].
      destruct (strstrip_spec s) as (r & Er & St). rewrite Er. cbn [bind].
      assert (x < length g)%nat as Lx by (apply nth_error_Some; congruence).
      destruct (IH (upd g x (Some r))) as (h' & ps' & Ew & F2 & Fa & Lh & K); auto.
      { intros i s' Hi. destruct (F i s' (or_intror Hi)) as (E' & G'). split; auto. rewrite nth_error_upd_ne; auto. intros ->. apply H1. exact (in_map fst _ _ Hi). }
      exists h', ((x, r) :: ps'). split; auto. split; [constructor; auto|]. split; [|split].
      + intros i s' [Ei|Hi]; auto. injection Ei as <- <-. split; [rewrite K by auto; apply nth_error_upd_eq; auto|].
        destruct St as (pre & post & -> & _). unfold good_str in *. rewrite !Forall_app in G. tauto.
      + rewrite Lh. apply upd_length.
      + intros i Hi. cbn in Hi. rewrite K by tauto. apply nth_error_upd_ne. tauto. }
  destruct (W ps h ND F) as (h' & ps' & Ew & F2 & Fa & Lh & K). exists h', ps'. split; auto.
  assert (map fst ps' = map fst ps) as EF. { clear - F2. induction F2 as [|? ? ? ? (E & _)]; cbn; auto. congruence. }
  split; [|auto]. split; [|split].
  - exists junk. rewrite EF. auto.
  - rewrite EF. auto.
  - auto.
Qed.
