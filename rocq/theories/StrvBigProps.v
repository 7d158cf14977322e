(* C47 and C49 for any number of strings: gutil_strv_length returns the length modulo 2^32, so that
   only so many of the first strings are sorted and searched, and the others are lost when something
   is added or removed *)
From Verif Require Import Base PtrvModel PtrvSpec PtrvProofs StrvModel StrvSpec StrvProofs StrvProps StrvLimitProps.
From Coq Require Import ZifyBool Arith Permutation Sorted.
Ltac Zify.zify_post_hook ::= Z.div_mod_to_equations.

Lemma elements_front h (T : blk) : forall ps, (forall i s, In (i, s) ps -> arg h i s) -> elements h (map CPtr (map fst ps) ++ T) (length ps) = Ok (map fst ps).
Proof.
  induction ps as [|[i s] ps IH]; intros F; [destruct T; reflexivity|]. cbn [length elements map app fst as_ptr bind]. destruct (F i s (or_introl eq_refl)) as (E & _).
  unfold look. rewrite E. cbn [bind]. rewrite IH by (intros; apply F; right; auto). reflexivity.
Qed.

(* the first strings, as many as the length modulo 2^32, are sorted; the others stay as they are *)
Theorem C49_sort_exact qsort scmp h v ps asc : good_qsort qsort -> good_strcmp scmp -> strings h v ps -> len ps < 2^64 ->
  exists a c, ps = a ++ c /\ len a = len ps mod 2^32 /\
  exists v' a', strv_sort qsort scmp h v asc = Ok v' /\ strings h v' (a' ++ c) /\ Permutation a a' /\ StronglySorted (in_order asc) (map snd a').
Proof.
  intros Q G A L64. pose proof (C46_length_exact h v ps A L64) as LE. pose proof A as (H & ND & F). pose proof (len_nonneg ps).
  set (k := len ps mod 2^32) in *. assert (Hk : 0 <= k <= len ps /\ k < 2^32) by (unfold k; lia). clearbody k.
  exists (firstn (Z.to_nat k) ps), (skipn (Z.to_nat k) ps). split; [symmetry; apply firstn_skipn|].
  assert (La : len (firstn (Z.to_nat k) ps) = k) by (unfold len in *; rewrite firstn_length; lia). split; [exact La|].
  assert (Eps : ps = firstn (Z.to_nat k) ps ++ skipn (Z.to_nat k) ps) by (symmetry; apply firstn_skipn).
  revert La Eps. generalize (firstn (Z.to_nat k) ps) (skipn (Z.to_nat k) ps). intros a c La ->.
  unfold strv_sort. rewrite LE. cbn [bind]. destruct (Z.gtb_spec k 0) as [HP|HP].
  2:{ destruct a; [|rewrite len_cons in La; pose proof (len_nonneg a); lia]. exists v, []. split; auto. split; auto. split; constructor. }
  destruct v as [b|]; [|cbn in H; destruct a; [cbn in La; lia|discriminate]]. destruct H as (junk & ->).
  rewrite !map_app, <- !app_assoc. replace (Z.to_nat k) with (length a) by (unfold len in La; lia).
  rewrite elements_front by (intros; apply F; apply in_or_app; auto). cbn [bind].
  set (cmp := fun x y => str_order scmp asc (content h x) (content h y)).
  assert (forall x, In x (map fst a) -> good_str (content h x)) as GS.
  { intros x Hx. apply in_map_iff in Hx. destruct Hx as ((x', u) & Ex & Hx). cbn [fst] in Ex. subst x'. destruct (F x u ltac:(apply in_or_app; auto)) as (E & Gs). unfold content. rewrite E. auto. }
  assert (consistent cmp (map fst a)) as C.
  { intros x y z Hx Hy Hz. pose proof (GS x Hx). pose proof (GS y Hy). pose proof (GS z Hz). split.
    - unfold cmp. pose proof (str_order_sgn scmp asc (content h x) (content h y) G) as S1. pose proof (str_order_sgn scmp asc (content h y) (content h x) G) as S2.
      specialize (S1 ltac:(auto) ltac:(auto)). specialize (S2 ltac:(auto) ltac:(auto)).
      rewrite (lexc_opp (content h x) (content h y)) in *. destruct asc, (lexc (content h x) (content h y)); cbn [sign_of CompOpp] in *; lia.
    - unfold cmp. rewrite !order_le by auto. apply in_order_trans. }
  destruct (Q cmp (map fst a) C) as (P & SS).
  destruct (Permutation_map_inv fst a (Permutation_sym P)) as (a' & E & P').
  eexists _, a'. split; [reflexivity|]. assert (forall p, In p a' -> In p a) as I' by (intros p Hp; eapply Permutation_in; [symmetry; exact P'|auto]).
  split; [|split; auto].
  - split; [|split].
    + exists junk. rewrite E. rewrite skipn_app, skipn_all2 by (rewrite !map_length; auto). rewrite !map_length, Nat.sub_diag. cbn [skipn app].
      rewrite !map_app, <- app_assoc. reflexivity.
    + rewrite map_app, <- E. rewrite map_app in ND. eapply Permutation_NoDup; [|exact ND]. apply Permutation_app_tail. exact P.
    + intros i s Hi. apply F. apply in_app_or in Hi. apply in_or_app. destruct Hi; auto.
  - rewrite E in SS. clear - SS I' F G. induction a' as [|[i s] ps' IH]; [constructor|]. cbn [map fst snd] in *. inversion SS as [|? ? S1 S2]; subst. constructor.
    + apply IH; auto. intros; apply I'; right; auto.
    + apply Forall_forall. intros r Hr. apply in_map_iff in Hr. destruct Hr as ((j & r') & Er & Hr). cbn in Er. subst r'.
      rewrite Forall_forall in S2. specialize (S2 j (in_map fst _ _ Hr)). unfold cmp, content in S2.
      destruct (F i s) as (E1 & G1); [apply in_or_app; left; apply I'; left; auto|]. destruct (F j r) as (E2 & G2); [apply in_or_app; left; apply I'; right; auto|].
      rewrite E1, E2 in S2. apply order_le in S2; auto.
Qed.
Print Assumptions C49_sort_exact.

(* Only those first strings are searched, and need to be sorted. The index is converted to int, so that
   those above 2^31-1 come out negative, but never as -1. *)
Theorem C49_bsearch_exact scmp h v ps s t asc a c : good_strcmp scmp -> strings h v ps -> len ps < 2^64 -> arg h s t ->
  ps = a ++ c -> len a = len ps mod 2^32 -> StronglySorted (in_order asc) (map snd a) ->
  (strv_bsearch scmp h v (Some s) asc = Ok (-1) /\ ~ In t (map snd a)) \/
  (exists i, 0 <= i /\ nth_error (map snd a) (Z.to_nat i) = Some t /\
     strv_bsearch scmp h v (Some s) asc = Ok (if i <? 2^31 then i else i - 2^32) /\ i <> 2^32 - 1).
Proof.
  intros G A L64 (Hs & Gs) Eps La SS. pose proof (C46_length_exact h v ps A L64) as LE. pose proof A as (H & ND & F).
  pose proof (len_nonneg ps). unfold strv_bsearch. rewrite LE. cbn [bind]. rewrite <- La.
  assert (Hk : len a < 2^32) by lia.
  destruct (Z.gtb_spec (len a) 0) as [HP|HP].
  2:{ left. split; auto. destruct a as [|? qs]; [auto|exfalso; rewrite len_cons in *; pose proof (len_nonneg qs); lia]. }
  destruct v as [b|]; [|cbn in H; subst ps; destruct a; [cbn in HP; lia|discriminate]]. destruct H as (junk & ->). assert (look h s = Ok t) as -> by (unfold look; rewrite Hs; auto).
  set (cmp := fun x => do a <- look h x; Ok (str_order scmp asc t a)). change (bind (Ok t) ?f) with (f t). cbv beta. fold cmp.
  assert (forall fuel lo hi, (Z.to_nat (hi - lo) < fuel)%nat -> 0 <= lo <= hi -> hi <= len a ->
    (forall k, 0 <= k < lo \/ hi <= k -> nth_error (map snd a) (Z.to_nat k) <> Some t) ->
    (bsearch_loop fuel cmp (map CPtr (map fst ps) ++ CNull :: junk) lo hi = Ok (-1) /\ ~ In t (map snd a)) \/
    (exists i, bsearch_loop fuel cmp (map CPtr (map fst ps) ++ CNull :: junk) lo hi = Ok i /\ 0 <= i < len a /\ nth_error (map snd a) (Z.to_nat i) = Some t)) as BS.
  { induction fuel as [|fuel IH]; intros lo hi Hf Hlo Hhi N; [lia|]. cbn [bsearch_loop]. destruct (Z.ltb_spec lo hi) as [LH|LH].
    - set (i := (lo + hi) / 2) in *. assert (lo <= i < hi) as Hi by (unfold i; lia). clearbody i.
      destruct (nth_error a (Z.to_nat i)) as [(x & u)|] eqn:E. 2:{ apply nth_error_None in E. unfold len in *. lia. }
      assert (nth_error ps (Z.to_nat i) = Some (x, u)) as E0 by (rewrite Eps, nth_error_app1; auto; unfold len in *; lia).
      assert (nth_error (map fst ps) (Z.to_nat i) = Some x) as E1 by (rewrite nth_error_map, E0; auto).
      assert (nth_error (map snd a) (Z.to_nat i) = Some u) as E2 by (rewrite nth_error_map, E; auto).
      pose proof (at_in _ junk _ _ E1) as AT. rewrite Z2Nat.id in AT by lia. rewrite AT. cbn [bind]. destruct (F x u (nth_error_In _ _ E0)) as (Ex & Ga).
      unfold cmp at 1 4. unfold look. rewrite Ex. cbn [bind]. pose proof (str_order_sgn scmp asc t u G Gs Ga) as Sg.
      destruct (Z.ltb_spec (str_order scmp asc t u) 0); [|destruct (Z.gtb_spec (str_order scmp asc t u) 0)].
      + apply IH; try lia. intros k Hk2. destruct (Z.lt_ge_cases k lo) as [K|K]; [apply N; lia|]. intros Ek. assert (in_order asc u t) as O.
        { destruct (Z.eq_dec k i) as [->|Ni]; [|eapply (sorted_nth _ _ (Z.to_nat i) (Z.to_nat k)); eauto; lia].
          rewrite E2 in Ek. injection Ek as ->. unfold in_order. rewrite lexc_refl. destruct asc; discriminate. }
        unfold in_order in O. rewrite (lexc_opp u t) in Sg. destruct asc, (lexc u t); cbn [sign_of CompOpp] in *; try lia; congruence.
      + apply IH; try lia. intros k Hk2. destruct (Z.lt_ge_cases k hi) as [K|K]; [|apply N; lia]. intros Ek. assert (in_order asc t u) as O.
        { destruct (Z.eq_dec k i) as [->|Ni]; [|eapply (sorted_nth _ _ (Z.to_nat k) (Z.to_nat i)); eauto; lia].
          rewrite E2 in Ek. injection Ek as ->. unfold in_order. rewrite lexc_refl. destruct asc; discriminate. }
        unfold in_order in O. rewrite (lexc_opp t u) in Sg. destruct asc, (lexc t u); cbn [sign_of CompOpp] in *; try lia; congruence.
      + right. exists i. split; auto. split; [lia|]. rewrite E2. f_equal. rewrite (lexc_opp u t) in Sg. destruct (lexc u t) eqn:EL; [apply lexc_eq; auto| |]; destruct asc; cbn [sign_of CompOpp] in Sg; lia.
    - left. split; auto. intros Hin. apply In_nth_error in Hin. destruct Hin as (k & Ek). apply (N (Z.of_nat k)); [lia|]. rewrite Nat2Z.id. auto. }
  destruct (BS (S (Z.to_nat (len a))) 0 (len a)) as [(E & N)|(i & E & Hi & Ei)]; try lia.
  - intros k [Hk2|Hk2]; [lia|]. intros Ek. assert (Z.to_nat k < length (map snd a))%nat by (apply nth_error_Some; congruence). rewrite map_length in *. unfold len in *. lia.
  - left. rewrite E. split; auto.
  - right. exists i. rewrite E. cbn [bind]. split; [lia|]. split; [exact Ei|]. split; [|lia]. f_equal. unfold s32.
    destruct (Z.ltb_spec i (2^31)); lia.
Qed.
Print Assumptions C49_bsearch_exact.

(* 2^32 + 1 strings: only the first one is looked at *)
Example C49_example_exact : exists h v ps a c, strings h v ps /\ len ps < 2^64 /\ ps = a ++ c /\ len a = len ps mod 2^32 /\ len a = 1 /\
  StronglySorted (in_order true) (map snd a) /\ c <> [].
Proof.
  assert (exists n, n = 2^32) as (n & Hn) by eauto. destruct (many (S (Z.to_nat n))) as (h & v & ps & H & L).
  destruct ps as [|p1 ps]; try discriminate. cbn [length] in L. injection L as L.
  exists h, v, (p1 :: ps), [p1], ps. split; auto. rewrite !len_cons. change (len (@nil (nat * str))) with 0. assert (len ps = 2^32) as E by (unfold len; lia). rewrite E.
  split; [lia|]. split; auto. split; [reflexivity|]. split; [reflexivity|]. split; [repeat constructor|]. intros ->. change (len (@nil (nat * str))) with 0 in E. lia.
Qed.

(* ---------------- adding ---------------- *)

Lemma nodup_front {A} (l l' : list A) : NoDup (l ++ l') -> NoDup l.
Proof.
  induction l as [|x l IH]; intros N; [constructor|]. cbn [app] in N. inversion N as [|? ? N1 N2]; subst. constructor; auto.
  intros Hx. apply N1. apply in_or_app. auto.
Qed.

(* Adding to an array of 2^32 strings or more keeps only the first ones, as many as the length modulo 2^32;
   the others are still in memory, but not in the array. With 2^32-1 or 2^32-2 of them (modulo 2^32) it
   writes outside of the block (in the second case there is no block: g_renew to size 0 gives NULL). *)
Theorem C47_add_exact h v ps s t : strings h v ps -> len ps < 2^64 -> arg h s t ->
  let n := len ps mod 2^32 in
  if n <? 2^32 - 2 then
    exists a c v', ps = a ++ c /\ len a = n /\ strv_add h v (Some s) = Ok (h ++ [Some t], v') /\
      strings (h ++ [Some t]) v' (a ++ [(length h, t)])
  else strv_add h v (Some s) = Fail OobWrite.
Proof.
  intros A L64 Hs n. pose proof (C46_length_exact h v ps A L64) as LE. fold n in LE. pose proof A as (H & ND & F). pose proof (len_nonneg ps).
  assert (Hn : 0 <= n < 2^32 /\ n <= len ps) by (unfold n; lia). clearbody n.
  cbn [strv_add]. rewrite LE. cbn [bind]. rewrite (strdup_spec h s t Hs). cbn [bind].
  destruct (Z.ltb_spec n (2^32 - 2)) as [Hl|Hl].
  - rewrite !u32_id by (unfold in_u32; lia).
    set (a := firstn (Z.to_nat n) ps). set (c := skipn (Z.to_nat n) ps).
    assert (Eps : ps = a ++ c) by (symmetry; apply firstn_skipn).
    assert (La : len a = n) by (unfold a, len in *; rewrite firstn_length; lia). clearbody a c. subst ps.
    assert (exists x y, renew v (n + 2) = map CPtr (map fst a) ++ [x; y]) as (x & y & ->).
    { assert (exists b, renew v (n + 2) = map CPtr (map fst a) ++ b) as (b & Eb).
      { unfold renew. destruct v as [b0|]; cbn [holds] in H.
        - destruct H as (junk & ->). rewrite !map_app, <- !app_assoc, firstn_app, firstn_all2 by (rewrite !map_length; unfold len in La; lia).
          rewrite <- app_assoc. eexists. reflexivity.
        - destruct a; [|discriminate]. eexists. reflexivity. }
      assert (len b = 2) as Lb.
      { apply (f_equal len) in Eb. rewrite len_app, !len_map in Eb. unfold renew in Eb. unfold len at 1 in Eb. rewrite app_length, firstn_length, repeat_length in Eb. lia. }
      rewrite Eb. destruct (len_cons_inv b _ Lb ltac:(lia)) as (x & b1 & -> & Lc). destruct (len_cons_inv b1 _ Lc ltac:(lia)) as (y & d & -> & Ld).
      destruct d as [|? d]; [eauto|rewrite len_cons in Ld; pose proof (len_nonneg d); lia]. }
    rewrite <- La, <- (len_map fst a), <- (len_map CPtr (map fst a)). rewrite wr_mid. cbn [bind].
    replace (map CPtr (map fst a) ++ CPtr (length h) :: [y]) with ((map CPtr (map fst a) ++ [CPtr (length h)]) ++ [y]) by (rewrite <- app_assoc; reflexivity).
    replace (len (map CPtr (map fst a)) + 1) with (len (map CPtr (map fst a) ++ [CPtr (length h)])) by (rewrite len_app; reflexivity).
    rewrite wr_mid. cbn [bind]. exists a, c. eexists. split; [reflexivity|]. split; [rewrite !len_map; reflexivity|]. split; [reflexivity|].
    assert (forall i u, In (i, u) a -> nth_error h i = Some (Some u)) as Fa by (intros i u Hi; apply F; apply in_or_app; auto).
    assert (forall i u, In (i, u) a -> (i < length h)%nat) as Fl by (intros i u Hi; apply nth_error_Some; rewrite (Fa i u Hi); discriminate).
    split; [|split].
    + exists []. rewrite !map_app. reflexivity.
    + rewrite map_app in *. cbn [map fst]. apply nodup_front in ND. apply NoDup_rev in ND. rewrite <- (rev_involutive (map fst a ++ [length h])). apply NoDup_rev.
      rewrite rev_app_distr. cbn [rev app]. constructor; auto. rewrite <- in_rev. intros Hin. apply in_map_iff in Hin. destruct Hin as ((i, u) & E & Hi). cbn [fst] in E. subst i. specialize (Fl _ _ Hi). lia.
    + intros i u Hi. apply in_app_or in Hi. destruct Hi as [Hi|[Hi|[]]].
      * rewrite nth_error_app1 by (eapply Fl; eauto). apply F. apply in_or_app. auto.
      * injection Hi as <- <-. rewrite nth_error_app2, Nat.sub_diag by lia. split; [reflexivity|apply Hs].
  - assert (u32 (n + 2) = n + 2 - 2^32) as -> by (unfold u32; lia). unfold wr.
    assert (len (renew v (n + 2 - 2^32)) = n + 2 - 2^32) as Lr by (unfold renew, len; rewrite app_length, firstn_length, repeat_length; lia).
    replace ((0 <=? n) && (n <? len (renew v (n + 2 - 2 ^ 32)))) with false by lia. reflexivity.
Qed.
Print Assumptions C47_add_exact.

(* ---------------- removing ---------------- *)

Lemma move_gap (A C T : blk) x : move (A ++ x :: C ++ T) (len A) (len A + 1) (len C) = Ok (A ++ C ++ skipn (length C) (x :: C ++ T)).
Proof.
  unfold move. pose proof (len_nonneg A). pose proof (len_nonneg C). pose proof (len_nonneg T). rewrite !len_app, !len_cons, !len_app.
  match goal with |- context[if ?c then _ else Fail OobRead] => replace c with true by lia end.
  match goal with |- context[if ?c then _ else Fail OobWrite] => replace c with true by lia end.
  f_equal. rewrite slice_app_l. f_equal. f_equal.
  - replace (A ++ x :: C ++ T) with ((A ++ [x]) ++ C ++ T) by (rewrite <- app_assoc; reflexivity).
    replace (len A + 1) with (len (A ++ [x])) by (rewrite len_app; reflexivity). rewrite slice_app_r.
    replace (len (A ++ [x]) + len C - len (A ++ [x])) with (len C) by lia. apply slice_app_l.
  - unfold slice, len. rewrite skipn_app, skipn_all2 by lia. cbn [app].
    replace (Z.to_nat (Z.of_nat (length A) + Z.of_nat (length C)) - length A)%nat with (length C) by lia.
    apply firstn_all2. rewrite skipn_length. cbn [length]. rewrite app_length. lia.
Qed.

(* The length is the length modulo 2^32, as an int. Positions from there on are out of range. With
   2^32 strings or more, removing another one leaves an array without the NULL at its end. *)
Theorem C47_remove_at_exact h v ps pos fr : strings h v ps -> len ps < 2^64 ->
  let n := len ps mod 2^32 in let m := if n <? 2^31 then n else n - 2^32 in
  (pos < 0 \/ m <= pos -> strv_remove_at h v pos fr = Ok (h, v)) /\
  (2^32 <= len ps -> 0 <= pos < m ->
     exists a x t c y u e h' b, ps = a ++ (x, t) :: c ++ (y, u) :: e /\ len a = pos /\ len a + 1 + len c = m /\
       strv_remove_at h v pos fr = Ok (h', Some b) /\ b = map CPtr (map fst (a ++ c ++ [(y, u)])) /\
       frees h (if (fr : bool) then [x] else []) h').
Proof.
  intros A L64 n m. pose proof (C46_length_exact h v ps A L64) as LE. fold n in LE. pose proof A as (H & ND & F). pose proof (len_nonneg ps).
  assert (Hn : 0 <= n < 2^32 /\ n <= len ps) by (unfold n; lia).
  assert (Em : s32 n = m). { unfold m, s32. destruct (Z.ltb_spec n (2^31)); lia. }
  unfold strv_remove_at. rewrite LE. cbn [bind]. rewrite Em. split.
  - intros Hp. destruct v as [b|]; [|reflexivity]. destruct (Z.geb_spec pos 0); [|reflexivity].
    destruct (Z.ltb_spec pos m); [lia|reflexivity].
  - intros Hb Hp. destruct v as [b|]; [|cbn in H; destruct ps; [cbn in Hb; lia|discriminate]]. destruct H as (junk & ->).
    assert (Hm : m < 2^31 /\ m <= len ps - 1) by (unfold m in *; destruct (Z.ltb_spec n (2^31)); lia). clearbody m. clear Em LE.
    destruct (nth_error ps (Z.to_nat pos)) as [(x, t)|] eqn:E1. 2:{ apply nth_error_None in E1. unfold len in *. lia. }
    destruct (nth_error_split _ _ E1) as (a & r & -> & La). rewrite len_app, len_cons in *.
    assert (La' : len a = pos) by (unfold len; lia).
    destruct (nth_error r (Z.to_nat (m - 1 - pos))) as [(y, u)|] eqn:E2. 2:{ apply nth_error_None in E2. unfold len in *. lia. }
    destruct (nth_error_split _ _ E2) as (c & e & -> & Lc). assert (Lc' : len c = m - 1 - pos) by (unfold len; lia).
    exists a, x, t, c, y, u, e.
    assert (exists h', drop_str fr h x = Ok h' /\ frees h (if fr then [x] else []) h') as (h' & Ed & Fr).
    { destruct fr; cbn [drop_str].
      - destruct (free_obj_spec h h [] x (frees_nil h)) as (h' & E & Fr); [auto|exists t; apply F; apply in_or_app; right; left; auto|]. exists h'. auto.
      - exists h. split; auto. apply frees_nil. }
    exists h', (map CPtr (map fst (a ++ c ++ [(y, u)]))). split; [reflexivity|]. split; [exact La'|]. split; [lia|]. split; [|split; auto].
    replace (pos >=? 0) with true by lia. replace (pos <? m) with true by lia. unfold remove_impl.
    replace (at_ _ pos) with (Ok (Some x)).
    2:{ symmetry. rewrite <- La'. unfold len. apply at_in. rewrite map_app, nth_error_app2 by (rewrite map_length; lia). rewrite map_length, Nat.sub_diag. reflexivity. }
    cbn [bind]. rewrite Ed. cbn [bind]. rewrite !u32_id by (unfold in_u32; lia).
    replace (map CPtr (map fst (a ++ (x, t) :: c ++ (y, u) :: e)) ++ CNull :: junk)
      with (map CPtr (map fst a) ++ CPtr x :: map CPtr (map fst (c ++ [(y, u)])) ++ map CPtr (map fst e) ++ CNull :: junk).
    2:{ rewrite !map_app. cbn [map fst]. rewrite !map_app. cbn [map fst]. rewrite <- !app_assoc. cbn [app]. rewrite <- !app_assoc. reflexivity. }
    replace (len a) with (len (map CPtr (map fst a))) in La' by (rewrite !len_map; reflexivity).
    replace (m - pos) with (len (map CPtr (map fst (c ++ [(y, u)])))) by (rewrite !len_map, len_app; change (len [(y, u)]) with 1; lia).
    rewrite <- La', move_gap. cbn [bind]. f_equal. f_equal. f_equal. unfold renew.
    rewrite app_assoc, <- !map_app. rewrite len_map, len_map in La'.
    assert (Lm : Z.to_nat m = length (map CPtr (map fst (a ++ c ++ [(y, u)])))).
    { rewrite !map_length, !app_length. cbn [length]. unfold len in *. lia. }
    rewrite Lm, firstn_app, Nat.sub_diag, firstn_all. cbn [firstn]. rewrite app_length.
    replace (length (map CPtr (map fst (a ++ c ++ [(y, u)]))) - _)%nat with O by lia. cbn [repeat]. rewrite !app_nil_r. reflexivity.
Qed.
Print Assumptions C47_remove_at_exact.

Example C47_example_exact : exists h v ps s t, strings h v ps /\ len ps < 2^64 /\ arg h s t /\ 2^32 <= len ps /\ len ps mod 2^32 = 1.
Proof.
  assert (exists n, n = 2^32) as (n & Hn) by eauto. destruct (many (S (Z.to_nat n))) as (h & v & ps & H & L).
  assert (len ps = 2^32 + 1) as E by (unfold len; lia). destruct ps as [|(x, u) ps]; [discriminate|].
  exists h, v, ((x, u) :: ps), x, u. rewrite E. split; [exact H|]. split; [lia|]. split; [apply H; left; reflexivity|]. split; [lia|reflexivity].
Qed.
