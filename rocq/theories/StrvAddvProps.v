(* C47 for any number of strings: adding several strings *)
From Verif Require Import Base PtrvModel PtrvSpec PtrvProofs StrvModel StrvSpec StrvProofs StrvProps StrvLimitProps StrvBigProps.
From Coq Require Import ZifyBool Arith.
Ltac Zify.zify_post_hook ::= Z.div_mod_to_equations.

Lemma addv_loop_wide h0 : forall args ts h l x b done,
  h = h0 ++ done -> Forall2 (arg h0) args ts -> len b = len ts -> len l + len ts < 2^32 ->
  addv_loop h (map CPtr l ++ b ++ [x]) (len l) args =
    Ok (h ++ map Some ts, map CPtr (l ++ map fst (number (length h) ts)) ++ [x], len l + len ts).
Proof.
  induction args as [|s args IH]; intros ts h l x b done Hh F2 Lb LL; inversion F2; subst.
  - destruct b as [|c b]; [|rewrite len_cons, len_nil in Lb; pose proof (len_nonneg b); lia]. cbn [addv_loop map number app]. rewrite !app_nil_r. do 2 f_equal. rewrite len_nil. lia.
  - rename y into t, l' into ts. rewrite len_cons in *. pose proof (len_nonneg ts). pose proof (len_nonneg l). destruct b as [|c b]; [rewrite len_nil in Lb; lia|]. rewrite len_cons in Lb.
    cbn [addv_loop]. rewrite (strdup_spec _ s t). 2:{ destruct H1 as (E & G). split; auto. apply nth_error_app_new. auto. }
    cbn [bind]. rewrite <- (len_map CPtr l). cbn [app]. rewrite wr_mid. cbn [bind]. rewrite len_map. rewrite u32_id by (unfold in_u32; lia).
    replace (map CPtr l ++ CPtr (length (h0 ++ done)) :: b ++ [x]) with (map CPtr (l ++ [length (h0 ++ done)]) ++ b ++ [x]) by (rewrite map_app, <- app_assoc; reflexivity).
    replace (len l + 1) with (len (l ++ [length (h0 ++ done)])) by (rewrite len_app; reflexivity).
    rewrite (IH ts _ _ x b (done ++ [Some t])); [|rewrite <- app_assoc; auto|auto|lia|rewrite len_app; change (len [length (h0 ++ done)]) with 1; lia].
    cbn [map number]. rewrite <- !app_assoc. cbn [app].
    replace (length (h0 ++ done ++ [Some t])) with (S (length (h0 ++ done))) by (rewrite !app_length; cbn; lia).
    do 2 f_equal. rewrite len_app. change (len [length (h0 ++ done)]) with 1. lia.
Qed.

Lemma renew_front v (ps a c : list (nat * str)) k : holds v (map fst ps) -> ps = a ++ c -> 0 <= k -> exists b, renew v (len a + k) = map CPtr (map fst a) ++ b /\ len b = k.
Proof.
  intros H -> Hk. pose proof (len_nonneg a). assert (exists b, renew v (len a + k) = map CPtr (map fst a) ++ b) as (b & Eb).
  { unfold renew. destruct v as [b0|]; cbn [holds] in H.
    - destruct H as (junk & ->). rewrite !map_app, <- !app_assoc, firstn_app, firstn_all2 by (rewrite !map_length; unfold len; lia).
      rewrite <- app_assoc. eexists. reflexivity.
    - destruct a; [|discriminate]. eexists. reflexivity. }
  exists b. split; [exact Eb|]. apply (f_equal len) in Eb. rewrite len_app, !len_map in Eb. unfold renew in Eb. unfold len at 1 in Eb. rewrite app_length, firstn_length, repeat_length in Eb. lia.
Qed.

Lemma number_in n : forall ts i u, In (i, u) (number n ts) -> (n <= i)%nat /\ nth_error ts (i - n) = Some u.
Proof.
  intros ts. revert n. induction ts as [|t ts IH]; intros n i u H; [destruct H|]. cbn [number] in H. destruct H as [H|H]; [injection H as <- <-; split; [lia|rewrite Nat.sub_diag; reflexivity]|].
  destruct (IH _ _ _ H) as (L & E). split; [lia|]. replace (i - n)%nat with (S (i - S n)) by lia. exact E.
Qed.

Lemma strings_new h ps a c ts v' : (exists v, strings h v ps) -> ps = a ++ c -> Forall good_str ts -> holds v' (map fst (a ++ number (length h) ts)) -> strings (h ++ map Some ts) v' (a ++ number (length h) ts).
Proof.
  intros (v & _ & ND & F) -> G H.
  assert (Fa : forall i u, In (i, u) a -> arg h i u) by (intros i u Hi; apply F; apply in_or_app; auto).
  split; [exact H|]. split.
  - rewrite map_app in *. apply nodup_front in ND. clear H F c. assert (B : forall i, In i (map fst a) -> (i < length h)%nat).
    { intros i Hi. apply in_map_iff in Hi. destruct Hi as ((j, u) & <- & Hj). destruct (Fa _ _ Hj) as (E & _). apply nth_error_Some. cbn [fst]. rewrite E. discriminate. }
    clear Fa. induction (map fst a) as [|i l IH]; cbn [app].
    + clear. generalize (length h). induction ts as [|t ts IH]; intros n; cbn [number map]; constructor; auto. cbn [fst]. intros X. apply in_map_iff in X. destruct X as ((j, u) & E & Hj). apply number_in in Hj. cbn in E. lia.
    + inversion ND as [|? ? N1 N2]; subst. constructor; [|apply IH; auto; intros; apply B; right; auto]. intros X. apply in_app_or in X. destruct X as [X|X]; [auto|].
      apply in_map_iff in X. destruct X as ((j, u) & E & Hj). apply number_in in Hj. cbn in E. subst j. specialize (B i (or_introl eq_refl)). lia.
  - intros i u Hi. apply in_app_or in Hi. destruct Hi as [Hi|Hi].
    + destruct (Fa _ _ Hi) as (E & Gu). split; auto. apply nth_error_app_new. auto.
    + apply number_in in Hi. destruct Hi as (L & E). split; [|apply (proj1 (Forall_forall _ _) G u (nth_error_In _ _ E))]. rewrite nth_error_app2 by lia. rewrite nth_error_map, E. reflexivity.
Qed.

(* Adding strings keeps only the first ones of those which were there, as many as the length modulo 2^32. If there is no space for all of them and the NULL below 2^32, it writes outside of the
   block. Nothing happens if there is nothing to add. *)
Theorem C47_addv_exact h v ps args ts : strings h v ps -> len ps < 2^64 -> Forall2 (arg h) args ts -> len args < 2^32 ->
  let n := len ps mod 2^32 in
  match args with
  | [] => strv_addv h v args = Ok (h, v)
  | _ => if n + len args <? 2^32 - 1 then
           exists a c new v', ps = a ++ c /\ len a = n /\ strv_addv h v args = Ok (h ++ map Some ts, v') /\ strings (h ++ map Some ts) v' (a ++ new) /\
             map snd new = ts /\ forall i, In i (map fst new) -> nth_error h i = None
         else strv_addv h v args = Fail OobWrite
  end.
Proof.
  intros A L64 F2 L32 n. pose proof (C46_length_exact h v ps A L64) as LE. fold n in LE. pose proof A as (H & ND & F). pose proof (len_nonneg ps).
  assert (Hn : 0 <= n < 2^32 /\ n <= len ps) by (unfold n; lia). clearbody n.
  destruct F2 as [|s t args ts Hs F2]; [reflexivity|]. pose proof (len_nonneg args). pose proof (len_nonneg ts).
  assert (len args = len ts) as La by (clear - F2; induction F2; auto; rewrite !len_cons; lia). rewrite len_cons in *. rewrite La in *.
  cbn [strv_addv]. rewrite LE. cbn [bind]. rewrite len_cons, La, (u32_id (1 + len ts)) by (unfold in_u32; lia).
  destruct (Z.ltb_spec (n + (1 + len ts)) (2^32 - 1)) as [Hl|Hl].
  - rewrite (u32_id (n + (1 + len ts))) by (unfold in_u32; lia). rewrite (u32_id (_ + 1)) by (unfold in_u32; lia).
    set (a := firstn (Z.to_nat n) ps). set (c := skipn (Z.to_nat n) ps).
    assert (Eps : ps = a ++ c) by (symmetry; apply firstn_skipn).
    assert (Ln : len a = n) by (unfold a, len in *; rewrite firstn_length; lia). clearbody a c.
    destruct (renew_front v ps a c (1 + len ts + 1) H Eps ltac:(lia)) as (b & Eb & Lb). rewrite Ln in Eb.
    replace (n + (1 + len ts) + 1) with (n + (1 + len ts + 1)) by lia. rewrite Eb. rewrite (strdup_spec h s t Hs). cbn [bind].
    destruct (len_cons_inv b _ Lb ltac:(lia)) as (x & d & -> & Ld).
    subst n. assert (W : wr (map CPtr (map fst a) ++ x :: d) (len a) (CPtr (length h)) = Ok (map CPtr (map fst a) ++ CPtr (length h) :: d)) by (rewrite <- (len_map fst a), <- (len_map CPtr (map fst a)); apply wr_mid).
    rewrite W. cbn [bind]. rewrite u32_id by (unfold in_u32; lia).
    assert (exists c0 y, d = c0 ++ [y] /\ len c0 = len ts) as (c0 & y & -> & Lc0).
    { destruct (@exists_last _ d) as (c0 & y & E); [intros ->; rewrite len_nil in Ld; lia|]. exists c0, y. split; auto. rewrite E, len_app in Ld. change (len [y]) with 1 in Ld. lia. }
    replace (map CPtr (map fst a) ++ CPtr (length h) :: c0 ++ [y]) with (map CPtr (map fst a ++ [length h]) ++ c0 ++ [y]) by (rewrite map_app, <- app_assoc; reflexivity).
    replace (len a + 1) with (len (map fst a ++ [length h])) by (rewrite len_app, len_map; reflexivity).
    rewrite (addv_loop_wide h args ts (h ++ [Some t]) _ y c0 [Some t]); auto; [|rewrite len_app, len_map; change (len [length h]) with 1; lia]. cbn [bind].
    replace (len (map fst a ++ [length h]) + len ts) with (len (map CPtr ((map fst a ++ [length h]) ++ map fst (number (length (h ++ [Some t])) ts)))) by (rewrite len_map, !len_app, !len_map, number_len; reflexivity).
    rewrite wr_mid. cbn [bind]. exists a, c, (number (length h) (t :: ts)). eexists. rewrite <- (app_assoc h). cbn [map app]. split; [exact Eps|]. split; [reflexivity|]. split; [reflexivity|]. split; [|split].
    + apply (strings_new h ps a c (t :: ts)); eauto.
      * constructor; [apply Hs|]. clear - F2. induction F2 as [|? ? ? ? Hx]; constructor; auto. apply Hx.
      * cbn [number]. rewrite app_length, Nat.add_1_r. eapply holds_some; [reflexivity|]. rewrite (map_app fst). cbn [map fst]. rewrite <- app_assoc. reflexivity.
    + apply number_snd.
    + intros i Hi. apply number_fst_in in Hi. apply nth_error_None. lia.
  - rewrite (strdup_spec h s t Hs). cbn [bind].
    assert (E : u32 (u32 (n + (1 + len ts)) + 1) = n + (1 + len ts) + 1 - 2^32) by (unfold u32; lia). rewrite E.
    assert (Hk : 0 <= n + (1 + len ts) + 1 - 2^32 <= n) by lia. clear E. revert Hk. generalize (n + (1 + len ts) + 1 - 2^32). intros k Hk.
    assert (len (renew v k) = k) as Lr by (unfold renew, len; rewrite app_length, firstn_length, repeat_length; lia).
    unfold wr. replace ((0 <=? n) && (n <? len (renew v k))) with false by lia. reflexivity.
Qed.
Print Assumptions C47_addv_exact.

(* 2^32 + 1 strings and two more: three are left *)
Example C47_example_addv_exact : exists h v ps x t, strings h v ps /\ len ps < 2^64 /\ Forall2 (arg h) [x; x] [t; t] /\ len ps mod 2^32 + 2 < 2^32 - 1 /\ 2^32 < len ps.
Proof.
  assert (exists n, n = 2^32) as (n & Hn) by eauto. destruct (many (S (Z.to_nat n))) as (h & v & ps & H & L). pose proof H as (Hh & ND & F).
  assert (E : len ps = 2^32 + 1) by (unfold len; lia). destruct ps as [|(x, t) ps]; [discriminate|]. exists h, v, ((x, t) :: ps), x, t. rewrite E.
  split; [exact H|]. split; [lia|]. split; [|split; [reflexivity|lia]]. repeat constructor; apply (F x t); left; reflexivity.
Qed.
