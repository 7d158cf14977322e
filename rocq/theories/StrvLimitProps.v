(* C46 and C51 once more: queries of string arrays with any number of strings, and where exactly gutil_objv_at does not return *)
From Verif Require Import Base PtrvModel PtrvSpec PtrvProofs StrvModel StrvSpec StrvProofs StrvProps ObjvModel ObjvProps.
From Coq Require Import ZifyBool Arith.
Ltac Zify.zify_post_hook ::= Z.div_mod_to_equations.

(* the length modulo 2^32 *)
Theorem C46_length_exact h v ps : strings h v ps -> len ps < 2^64 -> strv_length v = Ok (len ps mod 2^32).
Proof. intros (H & _) L. unfold strv_length. rewrite (length_spec v _ H) by (rewrite len_map; lia). cbn [bind]. rewrite len_map. reflexivity. Qed.
Print Assumptions C46_length_exact.

Lemma find_exact test (p : nat -> bool) junk : forall l i, (forall x, In x l -> test x = Ok (p x)) -> 0 <= i < 2^31 ->
  exists a c, l = a ++ c /\ (forall y, In y a -> p y = false) /\ (c = [] \/ exists x d, c = x :: d /\ p x = true) /\
    find_loop test (map CPtr l ++ CNull :: junk) i = if i + len a <? 2^31 then Ok (match c with [] => -1 | _ => i + len a end) else Fail SignedOverflow.
Proof.
  induction l as [|x l IH]; intros i T Hi; cbn [map app find_loop as_ptr bind].
  - exists [], []. split; auto. split; [contradiction|]. split; auto. change (len (@nil nat)) with 0. replace (i + 0 <? 2^31) with true by lia. reflexivity.
  - rewrite T by (left; auto). cbn [bind]. destruct (p x) eqn:P.
    + exists [], (x :: l). split; auto. split; [contradiction|]. split; [right; eauto|]. change (len (@nil nat)) with 0. replace (i + 0 <? 2^31) with true by lia. f_equal. lia.
    + unfold arith32. destruct (Z_lt_dec (i + 1) (2^31)) as [L|L].
      * replace ((- 2 ^ 31 <=? i + 1) && (i + 1 <? 2 ^ 31)) with true by lia. cbn [bind]. destruct (IH (i + 1)) as (a & c & -> & N & Hc & ->); [intros; apply T; right; auto|lia|].
        exists (x :: a), c. split; auto. split; [intros y [<-|Hy]; auto|]. split; auto. rewrite len_cons. replace (i + 1 + len a) with (i + (1 + len a)) by lia. reflexivity.
      * replace ((- 2 ^ 31 <=? i + 1) && (i + 1 <? 2 ^ 31)) with false by lia. cbn [bind]. destruct (find (fun y => p y) l) as [y|] eqn:F.
        -- assert (exists a c, l = a ++ c /\ (forall z, In z a -> p z = false) /\ exists w d, c = w :: d /\ p w = true) as (a & c & -> & N & Hc).
           { clear - F. induction l as [|z l IH]; [discriminate|]. cbn [find] in F. destruct (p z) eqn:E; [exists [], (z :: l); split; auto; split; [contradiction|eauto]|].
             destruct (IH F) as (a & c & -> & N & H). exists (z :: a), c. split; auto. split; auto. intros w [<-|Hw]; auto. }
           exists (x :: a), c. split; auto. split; [intros z [<-|Hz]; auto|]. split; auto. rewrite len_cons. pose proof (len_nonneg a). replace (i + (1 + len a) <? 2^31) with false by lia. reflexivity.
        -- exists (x :: l), []. rewrite app_nil_r. split; auto. split; [intros z [<-|Hz]; auto; apply (find_none _ _ F); auto|]. split; auto. rewrite len_cons. pose proof (len_nonneg l). replace (i + (1 + len l) <? 2^31) with false by lia. reflexivity.
Qed.

(* a is what is in front of the string, or everything if it is not there. From 2^31 strings on the index overflows. *)
Theorem C46_find_exact scmp h v ps s t : good_strcmp scmp -> strings h v ps -> arg h s t ->
  exists a c, ps = a ++ c /\ ~ In t (map snd a) /\ (c = [] \/ exists x d, c = (x, t) :: d) /\
    strv_find scmp h v (Some s) = if len a <? 2^31 then Ok (match c with [] => -1 | _ => len a end) else Fail SignedOverflow.
Proof.
  intros G (H & _ & F) Hs. destruct v as [b|]; cbn [strv_find].
  - destruct H as (junk & ->). assert (T : forall x, In x (map fst ps) -> same scmp h s x = Ok (content_is h t x)).
    { intros x Hx. apply in_map_iff in Hx. destruct Hx as ((x', u) & Ex & Hx). cbn [fst] in Ex. subst x'. destruct (F x u Hx) as (Ei & Gu). rewrite (same_spec scmp h s t x u G Hs (conj Ei Gu)). unfold content_is. rewrite Ei. auto. }
    destruct (find_exact (same scmp h s) (content_is h t) junk (map fst ps) 0 T ltac:(lia)) as (a & c & Eps & N & Hc & ->).
    assert (C : forall x u, In (x, u) ps -> content_is h t x = str_eqb u t) by (intros x u Hx; unfold content_is; rewrite (proj1 (F x u Hx)); auto).
    destruct (map_eq_app fst ps a c Eps) as (pa & pc & -> & <- & <-). exists pa, pc. rewrite len_map. split; auto. split; [|split].
    + intros X. apply in_map_iff in X. destruct X as ((x, u) & Eu & X). cbn [snd] in Eu. subst u. specialize (C x t ltac:(apply in_or_app; auto)). rewrite (N x) in C by (apply in_map_iff; exists (x, t); auto). destruct (str_eqb_spec t t); congruence.
    + destruct Hc as [Hc|(x & d & Hc & Px)]; [left; destruct pc; [auto|discriminate]|right]. destruct pc as [|(x', u) d']; [discriminate|]. injection Hc as -> <-. rewrite (C x u) in Px by (apply in_or_app; right; left; auto).
      destruct (str_eqb_spec u t) as [->|]; [eauto|discriminate].
    + cbn [Z.add]. destruct (len pa <? 2^31); auto. destruct pc; reflexivity.
  - cbn [holds] in H. destruct ps; [|discriminate]. exists [], []. auto 6.
Qed.
Print Assumptions C46_find_exact.

Lemma at_some l (junk : blk) k : 0 <= k < len l -> exists x, at_ (map CPtr l ++ CNull :: junk) k = Ok (Some x).
Proof. intros Hk. destruct (nth_error l (Z.to_nat k)) as [x|] eqn:E. 2:{ apply nth_error_None in E. unfold len in *. lia. } exists x. rewrite <- (Z2Nat.id k) by lia. apply at_in. auto. Qed.

(* The last string of less than 2^32, and no end with more *)
Theorem C46_last_exact h v ps q x s : strings h v ps -> ps = q ++ [(x, s)] ->
  (len ps < 2^32 -> strv_last v = Ok (Some x)) /\ (2^32 <= len ps -> forall b, v = Some b -> forall fuel, last_loop fuel b 0 = Fail NoFuel).
Proof.
  intros (H & _) ->. split.
  - intros L. rewrite len_app in L. change (len [(x, s)]) with 1 in L. destruct v as [b|]; [|cbn in H; rewrite map_app in H; destruct q; discriminate]. destruct H as (junk & ->). pose proof (len_nonneg q).
    assert (LQ : len (map fst (q ++ [(x, s)])) = len q + 1) by (rewrite len_map, len_app; reflexivity). cbn [strv_last]. destruct (at_some (map fst (q ++ [(x, s)])) junk 0 ltac:(lia)) as (y & ->). cbn [bind].
    assert (E : forall fuel k, (Z.to_nat (len q + 1 - k) < fuel)%nat -> 0 <= k < len q + 1 -> last_loop fuel (map CPtr (map fst (q ++ [(x, s)])) ++ CNull :: junk) k = Ok (len q)).
    { induction fuel as [|fuel IH]; intros k Hf Hk; [lia|]. cbn [last_loop]. rewrite u32_id by (unfold in_u32; lia). destruct (Z.eq_dec (k + 1) (len q + 1)) as [E|N].
      - rewrite E, <- LQ, at_end. cbn [bind]. f_equal. lia.
      - destruct (at_some (map fst (q ++ [(x, s)])) junk (k + 1) ltac:(lia)) as (z & ->). cbn [bind]. apply IH; lia. }
    rewrite E; [|rewrite app_length, (map_length CPtr); unfold len in *; cbn [length]; lia|lia]. cbn [bind].
    replace (len q) with (Z.of_nat (length q)) by (unfold len; lia). apply at_in. rewrite map_app, nth_error_app2 by (rewrite map_length; lia). rewrite map_length, Nat.sub_diag. reflexivity.
  - intros L b -> fuel. destruct H as (junk & ->). assert (E : forall fuel k, 0 <= k < 2^32 -> last_loop fuel (map CPtr (map fst (q ++ [(x, s)])) ++ CNull :: junk) k = Fail NoFuel).
    { clear fuel. induction fuel as [|fuel IH]; intros k Hk; [reflexivity|]. cbn [last_loop]. pose proof (Z.mod_pos_bound (k + 1) (2^32) ltac:(lia)) as B. fold (u32 (k + 1)) in B.
      destruct (at_some (map fst (q ++ [(x, s)])) junk (u32 (k + 1)) ltac:(rewrite len_map; lia)) as (z & ->). cbn [bind]. apply IH; lia. }
    apply E. lia.
Qed.
Print Assumptions C46_last_exact.

Lemma common_exact l1 j1 l2 j2 : Z.min (len l1) (len l2) < 2^32 -> forall fuel n, (Z.to_nat (len l1 - n) < fuel)%nat -> 0 <= n <= len l1 -> n <= len l2 ->
  common_loop fuel (map CPtr l1 ++ CNull :: j1) (map CPtr l2 ++ CNull :: j2) n = Ok (Z.min (len l1) (len l2)).
Proof.
  intros L. induction fuel; intros n Hf H1 H2; [lia|]. cbn [common_loop]. destruct (Z.eq_dec n (len l1)) as [->|N1].
  - rewrite at_end. cbn [bind]. f_equal. lia.
  - destruct (at_some l1 j1 n ltac:(lia)) as (x & ->). cbn [bind]. destruct (Z.eq_dec n (len l2)) as [->|N2].
    + rewrite at_end. cbn [bind]. f_equal. lia.
    + destruct (at_some l2 j2 n ltac:(lia)) as (y & ->). cbn [bind]. destruct (Z.eq_dec (n + 1) (2^32)) as [E|N]; [|rewrite u32_id by (unfold in_u32; lia); apply IHfuel; lia].
      exfalso. lia.
Qed.

(* Comparison is right unless both arrays have 2^32 strings or more; then there is no end *)
Theorem C46_equal_exact scmp h a1 v1 a2 v2 ps1 ps2 : good_strcmp scmp -> strings h v1 ps1 -> strings h v2 ps2 -> (a1 = a2 -> v1 = v2) ->
  (a1 = a2 \/ Z.min (len ps1) (len ps2) < 2^32 -> exists r, strv_equal scmp h a1 v1 a2 v2 = Ok r /\ (r = true <-> map snd ps1 = map snd ps2)) /\
  (2^32 <= Z.min (len ps1) (len ps2) -> forall b1 b2, v1 = Some b1 -> v2 = Some b2 -> forall fuel, common_loop fuel b1 b2 0 = Fail NoFuel).
Proof.
  intros G (H1 & _ & F1) (H2 & _ & F2) Ad. pose proof (len_nonneg ps1). pose proof (len_nonneg ps2). split.
  - intros L. destruct v1 as [b1|], v2 as [b2|]; cbn [holds] in *; cbn [strv_equal].
    + destruct H1 as (j1 & ->). destruct H2 as (j2 & ->). destruct (Z.eqb_spec a1 a2) as [E|N].
      * exists true. split; auto. split; auto. intros _. specialize (Ad E). injection Ad as Ad. f_equal.
        assert (map fst ps1 = map fst ps2) as EF.
        { clear - Ad. revert Ad. generalize (map fst ps1) (map fst ps2). induction l as [|x l IH]; intros [|y l2]; cbn; try discriminate; auto. intros E. injection E as <- E. f_equal. auto. }
        clear - EF F1 F2. revert ps2 EF F2. induction ps1 as [|[i s] q1 IH]; intros [|[j r] q2] EF F2; try discriminate; auto. injection EF as <- EF. f_equal.
        -- destruct (F1 i s (or_introl eq_refl)) as (X & _). destruct (F2 i r (or_introl eq_refl)) as (Y & _). congruence.
        -- apply IH; auto; intros; [apply F1|apply F2]; right; auto.
      * destruct L as [L|L]; [contradiction|]. rewrite (common_exact (map fst ps1) j1 (map fst ps2) j2); rewrite ?len_map; try lia; [|rewrite app_length, map_length, map_length; unfold len; lia]. cbn [bind].
        destruct (Z.lt_trichotomy (len ps1) (len ps2)) as [LL|[LL|LL]].
        -- rewrite Z.min_l by lia. rewrite <- (len_map fst ps1). rewrite at_end. cbn [bind]. destruct (at_some (map fst ps2) j2 (len (map fst ps1))) as (y & ->); [rewrite !len_map; lia|]. cbn [bind].
           exists false. split; auto. split; [discriminate|]. intros E. apply (f_equal len) in E. rewrite !len_map in E. lia.
        -- rewrite Z.min_l by lia. rewrite <- (len_map fst ps1). rewrite at_end. cbn [bind]. replace (len (map fst ps1)) with (len (map fst ps2)) by (rewrite !len_map; auto). rewrite at_end. cbn [bind].
           eexists. split; [replace (Z.to_nat (len (map fst ps2))) with (length ps1) by (rewrite len_map, <- LL; unfold len; lia); apply (equal_loop_spec scmp h j1 j2 G ps1 ps2 [] []); auto; unfold len in LL; lia|].
           destruct (list_eq_dec _ _ _); split; auto; discriminate.
        -- rewrite Z.min_r by lia. destruct (at_some (map fst ps1) j1 (len ps2)) as (y & ->); [rewrite !len_map; lia|]. cbn [bind].
           exists false. split; auto. split; [discriminate|]. intros E. apply (f_equal len) in E. rewrite !len_map in E. lia.
    + destruct H1 as (j1 & ->). destruct ps2; [|discriminate]. destruct ps1 as [|[i s] q1]; cbn [map app fst]; eexists; (split; [reflexivity|]); split; auto; discriminate.
    + destruct H2 as (j2 & ->). destruct ps1; [|discriminate]. destruct ps2 as [|[i s] q1]; cbn [map app fst]; eexists; (split; [reflexivity|]); split; auto; discriminate.
    + destruct ps1, ps2; try discriminate. exists true. split; auto. split; auto.
  - intros L b1 b2 -> -> fuel. destruct H1 as (j1 & ->). destruct H2 as (j2 & ->). assert (E : forall fuel k, 0 <= k < 2^32 -> common_loop fuel (map CPtr (map fst ps1) ++ CNull :: j1) (map CPtr (map fst ps2) ++ CNull :: j2) k = Fail NoFuel).
    { clear fuel. induction fuel as [|fuel IH]; intros k Hk; [reflexivity|]. cbn [common_loop]. destruct (at_some (map fst ps1) j1 k ltac:(rewrite len_map; lia)) as (x & ->). cbn [bind].
      destruct (at_some (map fst ps2) j2 k ltac:(rewrite len_map; lia)) as (y & ->). cbn [bind]. apply IH. unfold u32. lia. }
    apply E. lia.
Qed.
Print Assumptions C46_equal_exact.

Example C46_example_exact : let h := [Some [97]; Some [98]; Some [97]] in strings h (Some [CPtr 0; CPtr 1; CNull]) [(0%nat, [97]); (1%nat, [98])] /\ arg h 2 [97] /\
  strv_length (Some [CPtr 0; CPtr 1; CNull]) = Ok (len [(0%nat, [97]); (1%nat, [98])] mod 2^32) /\ strv_last (Some [CPtr 0; CPtr 1; CNull]) = Ok (Some 1%nat).
Proof.
  cbn zeta. split; [|split; [split; [reflexivity|repeat constructor; lia]|split; vm_compute; reflexivity]].
  split; [exists []; reflexivity|]. split; [repeat constructor; cbn; intuition discriminate|]. intros i s [E|[E|[]]]; injection E as <- <-; (split; [reflexivity|repeat constructor; lia]).
Qed.

(* gutil_objv_at does not return exactly if there are 2^32 objects or more and the position is not below that; see C51_at_partial for the other cases *)
Theorem C51_at_endless v l pos : holds v l -> 2^32 <= pos -> 2^32 <= len l -> forall fuel, objv_at fuel v pos = Fail NoFuel.
Proof.
  intros H Hp Hl fuel. destruct v as [b|]; [|cbn in H; subst; change (len (@nil nat)) with 0 in Hl; lia]. destruct H as (junk & ->). cbn [objv_at].
  assert (E : forall fuel k, 0 <= k < 2^32 -> StrvModel.at_loop fuel (map CPtr l ++ CNull :: junk) k pos = Fail NoFuel).
  { clear fuel. induction fuel as [|fuel IH]; intros k Hk; [reflexivity|]. cbn [StrvModel.at_loop]. destruct (at_some l junk k ltac:(lia)) as (x & ->). cbn [bind]. replace (k <? pos) with true by lia. apply IH. unfold u32. lia. }
  rewrite E by lia. reflexivity.
Qed.
Print Assumptions C51_at_endless.

Example C51_example_endless : exists v l, holds v l /\ 2^32 <= len l.
Proof.
  assert (exists n, n = 2^32) as (n & Hn) by eauto. exists (Some (map CPtr (repeat 7%nat (Z.to_nat n)) ++ [CNull])), (repeat 7%nat (Z.to_nat n)). split; [exists []; reflexivity|]. unfold len. rewrite repeat_length. lia.
Qed.

(* arrays of any length are possible *)
Lemma many n : exists h v ps, strings h v ps /\ length ps = n.
Proof.
  exists (repeat (Some []) n), (Some (map CPtr (seq 0 n) ++ [CNull])), (map (fun i => (i, [])) (seq 0 n)). rewrite map_length, seq_length. split; auto. unfold strings. rewrite map_map. cbn [fst]. rewrite map_id.
  split; [exists []; reflexivity|]. split; [apply seq_NoDup|]. intros i s H. apply in_map_iff in H. destruct H as (j & E & Hj). injection E as -> <-. apply in_seq in Hj. split; [|constructor].
  rewrite (nth_error_nth' _ None) by (rewrite repeat_length; lia). f_equal. assert (X : In (nth i (repeat (Some (@nil Z)) n) None) (repeat (Some []) n)) by (apply nth_In; rewrite repeat_length; lia). apply repeat_spec in X. auto.
Qed.

Example C46_example_many : exists h v ps q x s, strings h v ps /\ 2^32 <= len ps /\ ps = q ++ [(x, s)].
Proof.
  assert (exists n, n = 2^32) as (n & Hn) by eauto. destruct (many (S (Z.to_nat n))) as (h & v & ps & H & L). destruct (exists_last (l := ps)) as (q & (x & s) & E); [intros ->; discriminate|].
  exists h, v, ps, q, x, s. split; auto. split; auto. unfold len. lia.
Qed.
