From Verif Require Import Base VariantModel VariantSpec.
From Coq Require Import ZifyBool.

Definition looks_floating (f : first_ref) : bool := match f with Claimed => false | _ => true end.
Definition thing_of (a : account) : option thing :=
  if owners a =? 0 then None else Some (Thing (a_kind a) (owners a) (looks_floating (a_first a)) (a_bytes a)).

Definition times (v : nat) (p : list (kind * nat)) : Z := len (filter (fun x => Nat.eqb (snd x) v) p).

Record rel (s : state) (w : world) : Prop := mkRel {
  r_blocks : s_blocks s = w_blocks w;
  r_things : s_things s = map thing_of (w_accts w);
  r_nonneg : forall v a, account_of w v = Some a -> 0 <= a_client a /\ a_pool a = times v (s_pool s);
  r_kinds : forall k v, In (k, v) (s_pool s) -> exists a, account_of w v = Some a /\ a_kind a = k;
  r_nodup : NoDup (s_freed s);
  r_freed : forall v, In v (s_freed s) <-> gone w v
}.

Lemma times_nonneg v p : 0 <= times v p.
Proof. apply len_nonneg. Qed.
Lemma times_app v p q : times v (p ++ q) = times v p + times v q.
Proof. unfold times. rewrite filter_app, len_app. reflexivity. Qed.
Lemma times_one v k x : times v [(k, x)] = if Nat.eqb x v then 1 else 0.
Proof. unfold times. cbn. destruct (Nat.eqb x v); reflexivity. Qed.

Lemma upd_map {A B} (f : A -> B) l n x : upd (map f l) n (f x) = map f (upd l n x).
Proof. revert n. induction l as [|y l IH]; intros n; [reflexivity|]. destruct n; cbn; [reflexivity|]. rewrite IH. reflexivity. Qed.

Lemma account_change w v f u a : account_of w v = Some a ->
  account_of (change w v f) u = if Nat.eqb u v then Some (f a) else account_of w u.
Proof.
  intros H. unfold change. rewrite H. unfold account_of in *. cbn [w_accts].
  assert (v < length (w_accts w))%nat by (apply nth_error_Some; congruence).
  destruct (Nat.eqb u v) eqn:E.
  - apply Nat.eqb_eq in E. subst. apply nth_error_upd_eq. assumption.
  - apply Nat.eqb_neq in E. apply nth_error_upd_ne. auto.
Qed.

Lemma owners_nonneg s w v a : rel s w -> account_of w v = Some a -> 0 <= owners a.
Proof.
  intros R H. destruct (r_nonneg _ _ R v a H) as (A & B). pose proof (times_nonneg v (s_pool s)). unfold owners, unclaimed. destruct (a_first a); lia.
Qed.

Lemma get_as_ok s w v a k : rel s w -> account_of w v = Some a -> a_kind a = k -> 0 < owners a ->
  get_as s k v = Ok (Thing k (owners a) (looks_floating (a_first a)) (a_bytes a)).
Proof.
  intros R H K O. unfold get_as, get. rewrite (r_things _ _ R). unfold account_of in H.
  rewrite (map_nth_error thing_of v _ H). unfold thing_of. replace (owners a =? 0) with false by lia. cbn [bind t_kind].
  rewrite K. destruct k; reflexivity.
Qed.

Lemma gone_change w v f a : account_of w v = Some a ->
  forall u, gone (change w v f) u <-> (u = v /\ owners (f a) = 0) \/ (u <> v /\ gone w u).
Proof.
  intros H u. unfold gone. rewrite (account_change w v f u a H). destruct (Nat.eqb u v) eqn:E.
  - apply Nat.eqb_eq in E. subst. split.
    + intros (b & Eb & O). inversion Eb; subst. auto.
    + intros [(_ & O)|(K & _)]; [eauto|congruence].
  - apply Nat.eqb_neq in E. split; [intros K; right; auto|]. intros [(K & _)|(_ & K)]; [congruence|auto].
Qed.

(* a change of the account which keeps the thing alive *)
Lemma rel_change s w v a f p : rel s w -> account_of w v = Some a -> 0 < owners a -> 0 < owners (f a) ->
  a_kind (f a) = a_kind a -> 0 <= a_client (f a) -> a_pool (f a) = times v p ->
  (forall u, u <> v -> times u p = times u (s_pool s)) ->
  (forall k u, In (k, u) p -> In (k, u) (s_pool s) \/ u = v /\ k = a_kind a) ->
  rel (St (s_blocks s) (upd (s_things s) v (thing_of (f a))) p (s_freed s)) (change w v f).
Proof.
  intros R H O O2 K C P T I. pose proof (account_change w v f) as AC. constructor; cbn [s_blocks s_things s_pool s_freed].
  - unfold change. rewrite H. apply (r_blocks _ _ R).
  - unfold change. rewrite H. cbn [w_accts]. rewrite (r_things _ _ R). apply upd_map.
  - intros u b Hb. rewrite (AC u a H) in Hb. destruct (Nat.eqb u v) eqn:E.
    + apply Nat.eqb_eq in E. subst. inversion Hb; subst. auto.
    + apply Nat.eqb_neq in E. rewrite (T u E). apply (r_nonneg _ _ R u b Hb).
  - intros k u Hin. rewrite (AC u a H). destruct (Nat.eqb u v) eqn:E.
    + apply Nat.eqb_eq in E. subst. exists (f a). split; auto. rewrite K. destruct (I k v Hin) as [J|(_ & ->)]; auto.
      destruct (r_kinds _ _ R k v J) as (b & B1 & B2). congruence.
    + apply Nat.eqb_neq in E. destruct (I k u Hin) as [J|(J & _)]; [|congruence]. apply (r_kinds _ _ R k u J).
  - apply (r_nodup _ _ R).
  - intros u. rewrite (gone_change w v f a H u), (r_freed _ _ R u). split.
    + intros G. right. split; auto. intros ->. destruct G as (b & B1 & B2). rewrite H in B1. inversion B1; subst. lia.
    + intros [(_ & K2)|(_ & K2)]; [lia|auto].
Qed.

Lemma thing_live a : 0 < owners a -> thing_of a = Some (Thing (a_kind a) (owners a) (looks_floating (a_first a)) (a_bytes a)).
Proof. intros H. unfold thing_of. replace (owners a =? 0) with false by lia. reflexivity. Qed.

Lemma state_eta s : St (s_blocks s) (s_things s) (s_pool s) (s_freed s) = s.
Proof. destruct s. reflexivity. Qed.

Lemma take_ok s w v a k : rel s w -> account_of w v = Some a -> a_kind a = k -> 0 < owners a ->
  exists s', take s k v = Ok s' /\ s' = set_things s (upd (s_things s) v (Some (Thing k (owners a + 1) (looks_floating (a_first a)) (a_bytes a)))).
Proof. intros R H K O. unfold take. rewrite (get_as_ok s w v a k R H K O). cbn [bind t_refs t_float t_bytes]. eauto. Qed.

(* one reference less: the account b has one owner less than a *)
Lemma drop_ok s w v a k f p : rel s w -> account_of w v = Some a -> a_kind a = k -> 0 < owners a -> owners (f a) = owners a - 1 ->
  a_kind (f a) = k -> 0 <= a_client (f a) -> a_bytes (f a) = a_bytes a ->
  (0 < owners (f a) -> looks_floating (a_first (f a)) = looks_floating (a_first a)) ->
  a_pool (f a) = times v p -> (forall u, u <> v -> times u p = times u (s_pool s)) ->
  (forall k u, In (k, u) p -> In (k, u) (s_pool s)) ->
  exists s', drop s k v = Ok s' /\ rel (set_pool s' p) (change w v f).
Proof.
  intros R H K O O2 K2 C B F P T I. unfold drop. rewrite (get_as_ok s w v a k R H K O). cbn [bind t_refs t_float t_bytes].
  destruct (owners a - 1 =? 0) eqn:E.
  - eexists. split; [reflexivity|]. unfold set_pool. cbn [s_blocks s_things s_freed].
    pose proof (account_change w v f) as AC. constructor; cbn [s_blocks s_things s_pool s_freed].
    + unfold change. rewrite H. apply (r_blocks _ _ R).
    + unfold change. rewrite H. cbn [w_accts]. rewrite (r_things _ _ R). rewrite <- upd_map. f_equal. unfold thing_of. replace (owners (f a) =? 0) with true by lia. reflexivity.
    + intros u b Hb. rewrite (AC u a H) in Hb. destruct (Nat.eqb u v) eqn:E2.
      * apply Nat.eqb_eq in E2. subst. inversion Hb; subst. auto.
      * apply Nat.eqb_neq in E2. rewrite (T u E2). apply (r_nonneg _ _ R u b Hb).
    + intros k0 u Hin. rewrite (AC u a H). destruct (r_kinds _ _ R k0 u (I k0 u Hin)) as (b & B1 & B2). destruct (Nat.eqb u v) eqn:E2; [|eauto].
      apply Nat.eqb_eq in E2. subst. exists (f a). split; auto. congruence.
    + constructor; [|apply (r_nodup _ _ R)]. rewrite (r_freed _ _ R). intros (b & B1 & B2). rewrite H in B1. inversion B1; subst. lia.
    + intros u. rewrite (gone_change w v f a H u). cbn [In]. rewrite (r_freed _ _ R u). split.
      * intros [->|G]; [left; split; [auto|lia]|]. destruct (Nat.eq_dec u v) as [->|]; [left; split; [auto|lia]|right; auto].
      * intros [(-> & _)|(_ & G)]; auto.
  - eexists. split; [reflexivity|]. assert (0 < owners (f a)) as O3 by lia.
    pose proof (rel_change s w v a f p R H O O3 ltac:(congruence) C P T) as RC. rewrite (thing_live (f a) O3) in RC. rewrite K2, O2, B, (F O3) in RC.
    unfold set_pool, set_things. cbn [s_blocks s_things s_freed]. apply RC. intros k0 u Hin. left. apply I. exact Hin.
Qed.

(* draining: the pool still holds l *)
Definition released (a : account) : account := Acct (a_kind a) (a_client a) (a_pool a - 1) (a_first a) (a_bytes a).

Lemma drain_items_ok : forall l s w, rel (set_pool s l) w ->
  exists s', drain_items s l = Ok s' /\ rel (set_pool s' []) (World (w_blocks w) (map drained (w_accts w))).
Proof.
  induction l as [|(k, v) l IH]; intros s w R; cbn [drain_items].
  - exists s. split; auto.
    assert (map drained (w_accts w) = w_accts w) as ->; [|destruct w; exact R].
    rewrite <- (map_id (w_accts w)) at 2. apply map_ext_in. intros a Ha. apply In_nth_error in Ha. destruct Ha as (v & Hv).
    destruct (r_nonneg _ _ R v a Hv) as (_ & P). unfold drained. change (times v (s_pool (set_pool s []))) with 0 in P. rewrite <- P. destruct a; reflexivity.
  - destruct (r_kinds _ _ R k v) as (a & H & K); [left; reflexivity|].
    destruct (r_nonneg _ _ R v a H) as (C & P). cbn [s_pool set_pool] in P.
    change ((k, v) :: l) with ([(k, v)] ++ l) in P. rewrite times_app, times_one, Nat.eqb_refl in P. pose proof (times_nonneg v l).
    assert (0 < owners a) as O by (unfold owners, unclaimed; destruct (a_first a); lia).
    destruct (drop_ok (set_pool s ((k, v) :: l)) w v a k released l R H K O) as (s' & E & R'); auto.
    + unfold owners, released. cbn. lia.
    + unfold released. cbn. lia.
    + intros u Hu. cbn [s_pool set_pool]. change ((k, v) :: l) with ([(k, v)] ++ l). rewrite times_app, times_one.
      replace (Nat.eqb v u) with false by (symmetry; apply Nat.eqb_neq; auto). reflexivity.
    + intros k0 u Hin. right. exact Hin.
    + (* the pool field does not matter for drop *)
      assert (exists s1, drop s k v = Ok s1 /\ set_pool s' l = set_pool s1 l) as (s1 & E1 & E2).
      { clear - E. unfold drop, get_as, get in *. cbn [set_pool s_things] in E. destruct (nth_error (s_things s) v) as [[t|]|]; cbn [bind] in *; try discriminate.
        destruct (kind_eqb (t_kind t) k); cbn [bind] in *; [|discriminate].
        destruct (t_refs t - 1 =? 0); inversion E; subst; eexists; split; reflexivity. }
      rewrite E1. cbn [bind]. rewrite E2 in R'. destruct (IH s1 (change w v released) R') as (s2 & E3 & R3). exists s2. split; auto.
      assert (World (w_blocks (change w v released)) (map drained (w_accts (change w v released))) = World (w_blocks w) (map drained (w_accts w))) as <-; auto.
      unfold change. rewrite H. cbn [w_blocks w_accts]. f_equal. rewrite <- upd_map.
      unfold account_of in H. clear - H. revert v H. induction (w_accts w) as [|b m IH]; intros v H; destruct v; try discriminate; cbn in *.
      * inversion H; subst. reflexivity.
      * f_equal. apply IH. exact H.
Qed.

Lemma create_rel s w a : rel s w -> owners a = 1 -> 0 <= a_client a -> a_pool a = 0 ->
  rel (set_things s (s_things s ++ [Some (Thing (a_kind a) 1 (looks_floating (a_first a)) (a_bytes a))])) (created w a).
Proof.
  intros R O C P. constructor; cbn [set_things s_blocks s_things s_pool s_freed].
  - apply (r_blocks _ _ R).
  - cbn [created w_accts]. rewrite (r_things _ _ R), map_app. cbn [map]. rewrite thing_live by lia. rewrite O. reflexivity.
  - intros v b Hb. unfold account_of, created in Hb. cbn [w_accts] in Hb. destruct (Nat.lt_ge_cases v (length (w_accts w))) as [L|L].
    + rewrite nth_error_app1 in Hb by lia. apply (r_nonneg _ _ R v b Hb).
    + rewrite nth_error_app2 in Hb by lia. destruct (v - length (w_accts w))%nat as [|m] eqn:E; cbn in Hb; [|destruct m; discriminate].
      inversion Hb; subst b. split; auto. rewrite P. unfold times.
      assert (filter (fun x => Nat.eqb (snd x) v) (s_pool s) = []) as ->; [|reflexivity].
      assert (forall k u, In (k, u) (s_pool s) -> u <> v) as N.
      { intros k u Hin ->. destruct (r_kinds _ _ R k v Hin) as (b & B & _). unfold account_of in B.
        assert (v < length (w_accts w))%nat by (apply nth_error_Some; congruence). lia. }
      clear - N. induction (s_pool s) as [|(k, u) p IH]; [reflexivity|]. cbn. replace (Nat.eqb u v) with false.
      * apply IH. intros k0 u0 H. apply (N k0). right. exact H.
      * symmetry. apply Nat.eqb_neq. apply (N k). left. reflexivity.
  - intros k v Hin. destruct (r_kinds _ _ R k v Hin) as (b & B & E). exists b. split; auto. unfold account_of, created in *. cbn [w_accts].
    rewrite nth_error_app1; auto. apply nth_error_Some. congruence.
  - apply (r_nodup _ _ R).
  - intros v. rewrite (r_freed _ _ R v). unfold gone, account_of, created. cbn [w_accts]. split.
    + intros (b & B & E). exists b. split; auto. rewrite nth_error_app1; auto. apply nth_error_Some. congruence.
    + intros (b & B & E). destruct (Nat.lt_ge_cases v (length (w_accts w))) as [L|L].
      * rewrite nth_error_app1 in B by lia. eauto.
      * rewrite nth_error_app2 in B by lia. destruct (v - length (w_accts w))%nat as [|m]; cbn in B; [|destruct m; discriminate]. inversion B; subst. lia.
Qed.

Lemma rel_blocks s w b : rel s w -> rel (set_blocks s b) (World b (w_accts w)).
Proof.
  intros R. constructor; cbn [set_blocks s_blocks s_things s_pool s_freed w_blocks w_accts]; auto; apply R.
Qed.

Lemma block_ok s w b l : rel s w -> nth_error (w_blocks w) b = Some (Some l) -> block s b = Ok l.
Proof. intros R H. unfold block. rewrite (r_blocks _ _ R), H. reflexivity. Qed.

Lemma mine_exists s w (k : kind) v a : rel s w -> account_of w v = Some a -> 0 < a_client a \/ a_first a = Floating -> 0 < owners a.
Proof.
  intros R H M. destruct (r_nonneg _ _ R v a H) as (C & P). pose proof (times_nonneg v (s_pool s)). unfold owners.
  destruct M as [M| ->]; cbn; [|lia]. unfold unclaimed. destruct (a_first a); lia.
Qed.

Lemma take_rel s w v a k : rel s w -> account_of w v = Some a -> a_kind a = k -> 0 < owners a ->
  exists s', take s k v = Ok s' /\ rel s' (change w v more).
Proof.
  intros R H K O. destruct (take_ok s w v a k R H K O) as (s' & E & ->). eexists. split; [exact E|].
  destruct (r_nonneg _ _ R v a H) as (C & P).
  pose proof (rel_change s w v a more (s_pool s) R H O) as RC.
  assert (owners (more a) = owners a + 1) as O2 by (unfold owners; cbn; lia).
  rewrite (thing_live (more a)) in RC by lia. cbn [more a_kind a_first a_bytes] in RC. rewrite O2, K in RC. unfold set_things. apply RC; auto; cbn; lia.
Qed.

Lemma drop_pool s k v s' : drop s k v = Ok s' -> set_pool s' (s_pool s) = s'.
Proof.
  unfold drop, get_as, get. destruct (nth_error (s_things s) v) as [[t|]|]; cbn [bind]; try discriminate.
  destruct (kind_eqb (t_kind t) k); cbn [bind]; [|discriminate]. destruct (t_refs t - 1 =? 0); intros E; inversion E; subst; reflexivity.
Qed.

Lemma less_rel s w v a k : rel s w -> account_of w v = Some a -> a_kind a = k -> 0 < a_client a \/ a_first a = Floating ->
  exists s', drop s k v = Ok s' /\ rel s' (change w v less).
Proof.
  intros R H K M. pose proof (mine_exists s w k v a R H M) as O. destruct (r_nonneg _ _ R v a H) as (C & P).
  destruct (drop_ok s w v a k less (s_pool s) R H K O) as (s' & E & R'); auto; unfold less.
  - unfold owners, unclaimed in *. destruct (0 <? a_client a) eqn:E; cbn; [destruct (a_first a); lia|]. destruct M as [M|M]; [lia|]. rewrite M. lia.
  - destruct (0 <? a_client a); cbn; auto.
  - destruct (0 <? a_client a) eqn:E; cbn; lia.
  - destruct (0 <? a_client a); reflexivity.
  - destruct (0 <? a_client a) eqn:E; cbn [a_first]; auto. destruct M as [M|M]; [lia|]. rewrite M. reflexivity.
  - destruct (0 <? a_client a); cbn; auto.
  - exists s'. split; auto. rewrite (drop_pool s k v s' E) in R'. exact R'.
Qed.

Lemma sink_rel s w v a : rel s w -> account_of w v = Some a -> a_kind a = KVariant -> 0 < owners a -> a_first a <> Floated ->
  exists s', sink s v = Ok s' /\ rel s' (change w v claimed).
Proof.
  intros R H K O F. unfold sink. rewrite (get_as_ok s w v a KVariant R H K O). cbn [bind t_refs t_float t_bytes].
  destruct (r_nonneg _ _ R v a H) as (C & P). pose proof (times_nonneg v (s_pool s)).
  pose proof (rel_change s w v a claimed (s_pool s) R H O) as RC.
  assert (0 < owners (claimed a)) as O2 by (unfold owners; cbn; lia).
  rewrite (thing_live (claimed a) O2) in RC. cbn [claimed a_kind a_first a_bytes a_client a_pool] in RC. rewrite K in RC.
  specialize (RC O2 eq_refl ltac:(lia) P (fun _ _ => eq_refl) (fun k u Hin => or_introl Hin)).
  destruct (a_first a) eqn:E; [|congruence|]; cbn [looks_floating]; eexists; (split; [reflexivity|]).
  - replace (owners a) with (owners (claimed a)); [exact RC|]. unfold owners. cbn. rewrite E. cbn. lia.
  - replace (owners a + 1) with (owners (claimed a)); [exact RC|]. unfold owners. cbn. rewrite E. cbn. lia.
Qed.

Lemma add_rel s w v a f k : rel s w -> account_of w v = Some a -> a_kind a = k -> 0 < owners a -> owners (f a) = owners a ->
  a_kind (f a) = k -> 0 <= a_client (f a) -> a_pool (f a) = a_pool a + 1 -> a_bytes (f a) = a_bytes a ->
  looks_floating (a_first (f a)) = looks_floating (a_first a) ->
  exists s', pool_add s k (Some v) = Ok (Some v, s') /\ rel s' (change w v f).
Proof.
  intros R H K O O2 K2 C2 P2 B2 L2. unfold pool_add. rewrite (get_as_ok s w v a k R H K O). cbn [bind].
  assert ((do s0 <- match k with KVariant => Ok s | KObject => Ok s end; Ok (Some v, set_pool s0 (s_pool s0 ++ [(k, v)])))
    = Ok (Some v, set_pool s (s_pool s ++ [(k, v)]))) as -> by (destruct k; reflexivity).
  eexists. split; [reflexivity|]. destruct (r_nonneg _ _ R v a H) as (C & P).
  pose proof (rel_change s w v a f (s_pool s ++ [(k, v)]) R H O) as RC. rewrite (thing_live (f a)) in RC by lia. rewrite K2, O2, B2, L2 in RC.
  replace (upd (s_things s) v (Some (Thing k (owners a) (looks_floating (a_first a)) (a_bytes a)))) with (s_things s) in RC.
  - unfold set_pool. apply RC; auto.
    + rewrite times_app, times_one, Nat.eqb_refl. lia.
    + intros u Hu. rewrite times_app, times_one. replace (Nat.eqb v u) with false by (symmetry; apply Nat.eqb_neq; auto). lia.
    + intros k0 u Hin. apply in_app_or in Hin. destruct Hin as [Hin|[Hin|[]]]; [left; auto|]. inversion Hin; subst. auto.
  - rewrite (r_things _ _ R). unfold account_of in H. pose proof (thing_live a O) as T. rewrite K in T. rewrite <- T. rewrite upd_map. f_equal.
    clear - H. revert v H. induction (w_accts w) as [|b m IH]; intros v H; destruct v; try discriminate; cbn in *.
    + inversion H; subst. reflexivity.
    + f_equal. apply IH. exact H.
Qed.

Lemma change_change w v f g a : account_of w v = Some a -> change (change w v f) v g = change w v (fun a => g (f a)).
Proof.
  intros H. pose proof (account_change w v f v a H) as A. rewrite Nat.eqb_refl in A.
  unfold change at 1. rewrite A. unfold change. rewrite H. cbn [w_blocks w_accts]. f_equal.
  clear. revert v. induction (w_accts w) as [|b m IH]; intros v; destruct v; cbn; auto. f_equal. apply IH.
Qed.

Theorem step_rel s w o : rel s w -> allowed w o -> exists s', step s o = Ok (result w o, s') /\ rel s' (after w o).
Proof.
  intros R A. destruct o as [l|b l|b|d| |o|o|v|v|v|v|k o|k o|]; cbn [step allowed after result] in *.
  - eexists. split; [reflexivity|]. rewrite (r_blocks _ _ R). apply rel_blocks. exact R.
  - destruct A as (l0 & A). rewrite (block_ok s w b l0 R A). cbn [bind]. eexists. split; [reflexivity|]. rewrite (r_blocks _ _ R). apply rel_blocks. exact R.
  - destruct A as (l0 & A). rewrite (block_ok s w b l0 R A). cbn [bind]. eexists. split; [reflexivity|]. rewrite (r_blocks _ _ R). apply rel_blocks. exact R.
  - destruct d as [d|]; cbn [copy_as_variant]; [|eexists; split; [reflexivity|exact R]].
    assert (length (s_things s) = length (w_accts w)) as L by (rewrite (r_things _ _ R); apply map_length).
    destruct (A d eq_refl) as [Z0|(P & b & l & Eb & El & Sz)].
    + rewrite Z0. cbn [Z.eqb create bind]. rewrite L. eexists. split; [reflexivity|]. apply (create_rel s w (Acct KVariant 0 0 Floating []) R); cbn; lia.
    + replace (d_size d =? 0) with false by lia. rewrite Eb, (block_ok s w b l R El). cbn [bind]. replace (d_size d <=? len l) with true by lia.
      cbn [create bind]. rewrite L. eexists. split; [reflexivity|]. unfold bytes_of. rewrite Eb, El.
      apply (create_rel s w (Acct KVariant 0 0 Floating (firstn (Z.to_nat (d_size d)) l)) R); cbn; lia.
  - assert (length (s_things s) = length (w_accts w)) as L by (rewrite (r_things _ _ R); apply map_length).
    cbn [create]. rewrite L. eexists. split; [reflexivity|]. apply (create_rel s w (Acct KObject 1 0 Claimed []) R); cbn; lia.
  - destruct o as [v|]; cbn [object_ref]; [|eexists; split; [reflexivity|exact R]]. destruct (A v eq_refl) as (a & H & K & O).
    destruct (take_rel s w v a KObject R H K O) as (s' & E & R'). rewrite E. cbn [bind]. eauto.
  - destruct o as [v|]; cbn [object_unref]; [|eexists; split; [reflexivity|exact R]]. destruct (A v eq_refl) as (a & H & K & M).
    destruct (less_rel s w v a KObject R H K M) as (s' & E & R'). rewrite E. cbn [bind]. eauto.
  - destruct A as (a & H & K & O). destruct (take_rel s w v a KVariant R H K O) as (s' & E & R'). rewrite E. cbn [bind]. eauto.
  - destruct A as (a & H & K & M). destruct (less_rel s w v a KVariant R H K M) as (s' & E & R'). rewrite E. cbn [bind]. eauto.
  - destruct A as ((a & H & K & O) & F). destruct (sink_rel s w v a R H K O (F a H)) as (s' & E & R'). rewrite E. cbn [bind]. eauto.
  - destruct A as (a & H & K & O). rewrite (get_as_ok s w v a KVariant R H K O). cbn [bind t_bytes]. rewrite H. eauto.
  - destruct o as [v|]; [|eexists; split; [reflexivity|exact R]]. destruct (A v eq_refl) as (a & H & K & M).
    pose proof (mine_exists s w k v a R H M) as O. destruct (r_nonneg _ _ R v a H) as (C & P).
    destruct (add_rel s w v a given k R H K O) as (s' & E & R'); unfold given.
    + unfold owners, unclaimed. destruct (0 <? a_client a) eqn:E; cbn; [destruct (a_first a); lia|]. destruct M as [M|M]; [lia|]. rewrite M. lia.
    + destruct (0 <? a_client a); cbn; auto.
    + destruct (0 <? a_client a) eqn:E; cbn; lia.
    + destruct (0 <? a_client a); reflexivity.
    + destruct (0 <? a_client a); reflexivity.
    + destruct (0 <? a_client a) eqn:E; cbn [a_first]; auto. destruct M as [M|M]; [lia|]. rewrite M. reflexivity.
    + rewrite E. cbn [bind]. eauto.
  - destruct o as [v|]; [|eexists; split; [reflexivity|exact R]]. destruct (A v eq_refl) as (a & H & K & O).
    unfold pool_add_ref. destruct (take_rel s w v a k R H K O) as (s1 & E1 & R1). rewrite E1. cbn [bind].
    pose proof (account_change w v more v a H) as H1. rewrite Nat.eqb_refl in H1. destruct (r_nonneg _ _ R v a H) as (C & P).
    set (f := fun a => Acct (a_kind a) (a_client a - 1) (a_pool a + 1) (a_first a) (a_bytes a)).
    destruct (add_rel s1 (change w v more) v (more a) f k R1 H1) as (s' & E & R'); auto.
    + unfold owners in *. cbn. lia.
    + unfold owners in *. cbn. lia.
    + cbn. lia.
    + rewrite E. cbn [bind]. exists s'. split; [reflexivity|]. rewrite (change_change w v more f a H) in R'.
      assert (change w v (fun a => f (more a)) = change w v lent) as <-; [|exact R'].
      unfold change. rewrite H. do 2 f_equal. unfold f, lent. cbn. f_equal. lia.
  - unfold drain. destruct (drain_items_ok (s_pool s) (set_pool s []) w) as (s' & E & R').
    + unfold set_pool. cbn. rewrite state_eta. exact R.
    + rewrite E. cbn [bind]. exists s'. split; [reflexivity|].
      assert (set_pool s' [] = s') as <-; [|exact R'].
      assert (forall l s0 s1, s_pool s0 = [] -> drain_items s0 l = Ok s1 -> s_pool s1 = []) as N.
      { induction l as [|(k, v) l IH]; intros s0 s1 P0 E0; cbn [drain_items] in E0; [inversion E0; subst; exact P0|].
        destruct (drop s0 k v) as [s2|] eqn:E2; cbn [bind] in E0; [|discriminate]. apply (IH s2 s1); auto.
        rewrite <- (drop_pool s0 k v s2 E2). cbn. exact P0. }
      pose proof (N _ _ _ (eq_refl : s_pool (set_pool s []) = []) E) as P0. destruct s'. cbn in *. subst. reflexivity.
Qed.

Theorem run_rel : forall ops s w, rel s w -> all_allowed w ops -> exists s', run s ops = Ok (results w ops, s') /\ rel s' (afters w ops).
Proof.
  induction ops as [|o ops IH]; intros s w R A; cbn [run all_allowed results afters] in *; [eauto|]. destruct A as (A & B).
  destruct (step_rel s w o R A) as (s1 & E1 & R1). rewrite E1. cbn [bind]. destruct (IH s1 (after w o) R1 B) as (s2 & E2 & R2). rewrite E2. cbn [bind]. eauto.
Qed.

Lemma rel_init : rel init start.
Proof.
  constructor; cbn; auto; try contradiction.
  - intros v a H. unfold account_of in H. destruct v; discriminate.
  - constructor.
  - intros v. split; [contradiction|]. intros (a & H & _). unfold account_of in H. destruct v; discriminate.
Qed.

(* ---------------- contents never change ---------------- *)

Lemma after_bytes w o v a : account_of w v = Some a -> exists b, account_of (after w o) v = Some b /\ a_bytes b = a_bytes a /\ a_kind b = a_kind a.
Proof.
  intros H.
  assert (forall x, exists b, account_of (created w x) v = Some b /\ a_bytes b = a_bytes a /\ a_kind b = a_kind a) as CR.
  { intros x. exists a. split; auto. unfold account_of, created in *. cbn [w_accts]. rewrite nth_error_app1; auto. apply nth_error_Some. congruence. }
  assert (forall f u, (forall x, a_bytes (f x) = a_bytes x /\ a_kind (f x) = a_kind x) ->
    exists b, account_of (change w u f) v = Some b /\ a_bytes b = a_bytes a /\ a_kind b = a_kind a) as CH.
  { intros f u F. destruct (account_of w u) as [c|] eqn:E.
    - rewrite (account_change w u f v c E). destruct (Nat.eqb v u) eqn:E2; [|eauto]. apply Nat.eqb_eq in E2. subst. rewrite H in E. inversion E; subst.
      exists (f c). split; auto.
    - unfold change. rewrite E. eauto. }
  destruct o as [l|b l|b|[d|]| |[o|]|[o|]|u|u|u|u|k [o|]|k [o|]|]; cbn [after]; eauto; try (apply CH; intros x; unfold more, less, claimed, given, lent; try destruct (0 <? a_client x); cbn; auto).
  unfold account_of in *. cbn [w_accts]. rewrite (map_nth_error drained v _ H). eauto.
Qed.

Lemma afters_bytes : forall ops w v a, account_of w v = Some a -> exists b, account_of (afters w ops) v = Some b /\ a_bytes b = a_bytes a /\ a_kind b = a_kind a.
Proof.
  induction ops as [|o ops IH]; intros w v a H; cbn [afters]; [eauto|]. destruct (after_bytes w o v a H) as (b & B1 & B2 & B3).
  destruct (IH _ v b B1) as (c & C1 & C2 & C3). exists c. repeat split; congruence.
Qed.

Lemma all_allowed_app : forall p w q, all_allowed w (p ++ q) <-> all_allowed w p /\ all_allowed (afters w p) q.
Proof. induction p as [|o p IH]; intros w q; cbn [all_allowed app afters]; [tauto|]. rewrite IH. tauto. Qed.
Lemma results_app : forall p w q, results w (p ++ q) = results w p ++ results (afters w p) q.
Proof. induction p as [|o p IH]; intros w q; cbn [results app afters]; [reflexivity|]. rewrite IH. reflexivity. Qed.
Lemma afters_app : forall p w q, afters w (p ++ q) = afters (afters w p) q.
Proof. induction p as [|o p IH]; intros w q; cbn [afters app]; auto. Qed.

(* ---------------- one reference too few ---------------- *)

Definition refs_of (s : state) (v : nat) : Z := match nth_error (s_things s) v with Some (Some t) => t_refs t | _ => 0 end.
Definition sound (s : state) (k : kind) (u : nat) : Prop :=
  exists x, nth_error (s_things s) u = Some x /\ forall t, x = Some t -> t_kind t = k /\ 1 <= t_refs t.

Lemma drop_sound s k v : sound s k v ->
  drop s k v = Fail UseAfterFree \/
  exists s', drop s k v = Ok s' /\ refs_of s' v = refs_of s v - 1 /\ (forall u, u <> v -> nth_error (s_things s') u = nth_error (s_things s) u) /\ sound s' k v.
Proof.
  intros (x & E & T). unfold drop, get_as, get. rewrite E. destruct x as [t|]; cbn [bind]; [|left; reflexivity]. right.
  destruct (T t eq_refl) as (K & L). rewrite K. replace (kind_eqb k k) with true by (destruct k; reflexivity). cbn [bind].
  assert (v < length (s_things s))%nat by (apply nth_error_Some; congruence).
  unfold refs_of, sound. rewrite E. destruct (t_refs t - 1 =? 0) eqn:Z0; eexists; (split; [reflexivity|]); cbn [s_things set_things].
  - rewrite nth_error_upd_eq by assumption. repeat split; [lia| |].
    + intros u Hu. apply nth_error_upd_ne. auto.
    + exists None. split; auto. discriminate.
  - rewrite nth_error_upd_eq by assumption. repeat split.
    + intros u Hu. apply nth_error_upd_ne. auto.
    + eexists. split; [reflexivity|]. intros t0 Et. inversion Et; subst. cbn. split; auto. lia.
Qed.

Lemma drain_short : forall l s v, (forall k u, In (k, u) l -> sound s k u) -> 0 <= refs_of s v -> refs_of s v < times v l ->
  drain_items s l = Fail UseAfterFree.
Proof.
  induction l as [|(k, u) l IH]; intros s v S0 N L; cbn [drain_items]; [change (times v []) with 0 in L; lia|].
  change ((k, u) :: l) with ([(k, u)] ++ l) in L. rewrite times_app, times_one in L.
  destruct (drop_sound s k u) as [E|(s' & E & Er & Eo & Es)]; [apply S0; left; reflexivity|rewrite E; reflexivity|].
  rewrite E. cbn [bind].
  assert (forall k0 u0, In (k0, u0) l -> sound s' k0 u0) as S1.
  { intros k0 u0 Hin. destruct (S0 k0 u0 (or_intror Hin)) as (x & X1 & X2). destruct (Nat.eq_dec u0 u) as [->|Hn].
    - destruct Es as (y & Y1 & Y2). exists y. split; auto. intros t Ht. destruct (Y2 t Ht) as (K1 & K2). split; auto. rewrite K1.
      destruct (S0 k u (or_introl eq_refl)) as (z & Z1 & Z2). unfold drop, get_as, get in E. rewrite Z1 in E. destruct z as [z|]; [|discriminate].
      rewrite Z1 in X1. inversion X1; subst x. destruct (X2 z eq_refl), (Z2 z eq_refl). congruence.
    - exists x. rewrite (Eo u0 Hn). auto. }
  destruct (Nat.eqb u v) eqn:Ev.
  - apply Nat.eqb_eq in Ev. subst u. apply (IH s' v S1); [|lia].
    assert (exists t, nth_error (s_things s) v = Some (Some t)) as (t & Et).
    { unfold drop, get_as, get in E. destruct (nth_error (s_things s) v) as [[t|]|]; try discriminate. eauto. }
    destruct (S0 k v (or_introl eq_refl)) as (x & X1 & X2). rewrite Et in X1. inversion X1; subst x. destruct (X2 t eq_refl). rewrite Er. unfold refs_of. rewrite Et. lia.
  - apply Nat.eqb_neq in Ev. assert (refs_of s' v = refs_of s v) as Q by (unfold refs_of; rewrite (Eo v) by auto; reflexivity).
    apply (IH s' v S1); lia.
Qed.

Lemma unrefs_drain : forall m s v f, drain_items (set_pool s []) (repeat (KVariant, v) m ++ s_pool s) = Fail f ->
  run s (repeat (VarUnref v) m ++ [Drain]) = Fail f.
Proof.
  induction m as [|m IH]; intros s v f E; cbn [repeat app run step] in *.
  - unfold drain. rewrite E. reflexivity.
  - cbn [drain_items] in E.
    assert (match drop s KVariant v with Ok s1 => drop (set_pool s []) KVariant v = Ok (set_pool s1 []) /\ s_pool s1 = s_pool s | Fail g => drop (set_pool s []) KVariant v = Fail g end) as D.
    { unfold drop, get_as, get. cbn [set_pool s_things]. destruct (nth_error (s_things s) v) as [[t|]|]; cbn [bind]; auto.
      destruct (kind_eqb (t_kind t) KVariant); cbn [bind]; auto. destruct (t_refs t - 1 =? 0); split; reflexivity. }
    destruct (drop s KVariant v) as [s1|g]; cbn [bind].
    + destruct D as (D & P). rewrite D in E. cbn [bind] in E. rewrite <- P in E. rewrite (IH s1 v f E). reflexivity.
    + rewrite D in E. cbn [bind] in E. congruence.
Qed.

Lemma run_app : forall p s q, run s (p ++ q) = do (x, s1) <- run s p; do (y, s2) <- run s1 q; Ok (x ++ y, s2).
Proof.
  induction p as [|o p IH]; intros s q; cbn [run app bind].
  - destruct (run s q) as [(y, s2)|]; reflexivity.
  - destruct (step s o) as [(x, s1)|]; cbn [bind]; auto. rewrite IH. destruct (run s1 p) as [(xs, s2)|]; cbn [bind]; auto.
    destruct (run s2 q) as [(y, s3)|]; reflexivity.
Qed.

Lemma times_repeat v k m : times v (repeat (k, v) m) = Z.of_nat m.
Proof.
  unfold times. assert (filter (fun x => Nat.eqb (snd x) v) (repeat (k, v) m) = repeat (k, v) m) as ->.
  { induction m; cbn; auto. rewrite Nat.eqb_refl. congruence. }
  unfold len. rewrite repeat_length. reflexivity.
Qed.

Theorem claim_steals s w v a : rel s w -> account_of w v = Some a -> a_kind a = KVariant -> 0 < owners a -> a_first a = Floated ->
  run s (VarSink v :: repeat (VarUnref v) (Z.to_nat (a_client a) + 1) ++ [Drain]) = Fail UseAfterFree.
Proof.
  intros R H K O F. cbn [run step]. unfold sink. rewrite (get_as_ok s w v a KVariant R H K O). cbn [bind t_float t_refs t_bytes]. rewrite F. cbn [looks_floating bind].
  set (s1 := set_things s _). rewrite (unrefs_drain _ s1 v UseAfterFree); [reflexivity|].
  destruct (r_nonneg _ _ R v a H) as (C & P). assert (owners a = a_client a + times v (s_pool s)) as Eo by (unfold owners; rewrite F; cbn; lia).
  assert (v < length (s_things s))%nat as L.
  { rewrite (r_things _ _ R), map_length. apply nth_error_Some. unfold account_of in H. congruence. }
  assert (nth_error (s_things s1) v = Some (Some (Thing KVariant (owners a) false (a_bytes a)))) as N by (apply nth_error_upd_eq; exact L).
  assert (sound (set_pool s1 []) KVariant v) as SV.
  { eexists. split; [exact N|]. intros t Et. inversion Et; subst. cbn. split; auto. lia. }
  apply (drain_short _ _ v).
  - intros k u Hin. apply in_app_or in Hin. destruct Hin as [Hin|Hin].
    + apply repeat_spec in Hin. inversion Hin; subst. exact SV.
    + change (s_pool s1) with (s_pool s) in Hin. destruct (r_kinds _ _ R k u Hin) as (b & B & Kb). destruct (Nat.eq_dec u v) as [->|Hn].
      * rewrite H in B. inversion B; subst. rewrite K. exact SV.
      * unfold sound. cbn [set_pool s_things s1 set_things]. unfold s1. cbn [set_things s_things]. rewrite nth_error_upd_ne by auto. rewrite (r_things _ _ R).
        unfold account_of in B. rewrite (map_nth_error thing_of u _ B). eexists. split; [reflexivity|]. intros t Et. unfold thing_of in Et.
        pose proof (owners_nonneg s w u b R B). destruct (owners b =? 0) eqn:E0; [discriminate|]. inversion Et; subst. cbn. split; auto. lia.
  - unfold refs_of. cbn [set_pool s_things]. rewrite N. cbn. lia.
  - unfold refs_of. cbn [set_pool s_things]. rewrite N. cbn [t_refs]. rewrite times_app, times_repeat. change (s_pool s1) with (s_pool s). lia.
Qed.
