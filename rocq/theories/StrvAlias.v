(* Lemmas about removing all strings equal to an element of the array itself (gutil_strv.c:236-262) *)
From Verif Require Import Base PtrvModel PtrvSpec PtrvProofs StrvModel StrvSpec StrvProofs.
From Coq Require Import ZifyBool.

Lemma same_gone scmp h s x a : nth_error h x = Some (Some a) -> nth_error h s = Some None -> same scmp h s x = Fail UseAfterFree.
Proof. intros E1 E2. unfold same, look. rewrite E1. cbn [bind]. rewrite E2. reflexivity. Qed.

(* the first comparison with a string which is gone *)
Lemma find_last_gone scmp h s pre seg post junk : nth_error h s = Some None -> (forall x, In x seg -> is_live h x) -> seg <> [] ->
  find_last_impl (same scmp h s) (map CPtr (pre ++ seg ++ post) ++ CNull :: junk) (len pre) (length seg) = Fail UseAfterFree.
Proof.
  intros G LV N. destruct seg as [|x seg _] using rev_ind; [congruence|]. clear N. rewrite app_length. cbn [length]. rewrite Nat.add_1_r. cbn [find_last_impl].
  replace (len pre + Z.of_nat (length seg)) with (Z.of_nat (length pre + length seg)) by (unfold len; lia).
  rewrite (at_in _ _ _ x). 2:{ rewrite nth_error_app2 by lia. replace (_ - _)%nat with (length seg) by lia. rewrite <- app_assoc, nth_error_app2, Nat.sub_diag by lia. reflexivity. }
  cbn [bind]. destruct (LV x) as (a & Ha); [apply in_or_app; right; left; reflexivity|]. rewrite (same_gone scmp h s x a Ha G). reflexivity.
Qed.

Lemma rest_gone scmp h s f pre seg post junk n : nth_error h s = Some None -> (forall x, In x seg -> is_live h x) ->
  remove_rest (S f) u32 (fun h => same scmp h s) (drop_str true) h (map CPtr (pre ++ seg ++ post) ++ CNull :: junk) (len pre) n (len seg) =
  match seg with [] => Ok (h, map CPtr (pre ++ seg ++ post) ++ CNull :: junk) | _ => Fail UseAfterFree end.
Proof.
  intros G LV. cbn [remove_rest]. replace (Z.to_nat (len seg)) with (length seg) by (unfold len; lia). destruct seg as [|x seg]; [reflexivity|].
  rewrite (find_last_gone scmp h s pre (x :: seg) post junk G LV) by discriminate. reflexivity.
Qed.

Lemma nodup_split {A} (a c a' c' : list A) x : NoDup (a ++ x :: c) -> a ++ x :: c = a' ++ x :: c' -> a = a' /\ c = c'.
Proof.
  revert a'. induction a as [|y a IH]; intros [|z a'] N E; cbn [app] in *.
  - injection E as <-. split; reflexivity.
  - injection E as <- ->. inversion N as [|? ? N1 _]; subst. destruct N1. apply in_or_app. right. left. reflexivity.
  - injection E as -> <-. inversion N as [|? ? N1 _]; subst. destruct N1. apply in_or_app. right. left. reflexivity.
  - injection E as <- E. inversion N; subst. destruct (IH a') as (-> & ->); [assumption|exact E|]. split; reflexivity.
Qed.

(* the loop, the string being among those which are looked at *)
Lemma rest_alias scmp h0 v0 ps s t : good_strcmp scmp -> array h0 v0 ps -> In (s, t) ps ->
  forall fuel h pre c1 c2 post junk, (length (c1 ++ s :: c2) < fuel)%nat -> removing h0 (map fst ps) h (pre ++ (c1 ++ s :: c2) ++ post) ->
  (forall x, In x post -> content_is h0 t x = false) -> len (pre ++ (c1 ++ s :: c2) ++ post) < 2^31 ->
  (c1 <> [] -> remove_rest fuel u32 (fun h => same scmp h s) (drop_str true) h (map CPtr (pre ++ (c1 ++ s :: c2) ++ post) ++ CNull :: junk) (len pre) (len (pre ++ (c1 ++ s :: c2) ++ post)) (len (c1 ++ s :: c2)) = Fail UseAfterFree) /\
  (c1 = [] -> exists h' junk', remove_rest fuel u32 (fun h => same scmp h s) (drop_str true) h (map CPtr (pre ++ (c1 ++ s :: c2) ++ post) ++ CNull :: junk) (len pre) (len (pre ++ (c1 ++ s :: c2) ++ post)) (len (c1 ++ s :: c2)) =
     Ok (h', map CPtr (pre ++ filter (fun x => negb (content_is h0 t x)) ((c1 ++ s :: c2) ++ post)) ++ CNull :: junk') /\
     removing h0 (map fst ps) h' (pre ++ filter (fun x => negb (content_is h0 t x)) ((c1 ++ s :: c2) ++ post))).
Proof.
  intros G A Hin fuel. assert (LV : forall i, In i (map fst ps) -> is_live h0 i) by (intros i Hi; destruct (array_arg_fst _ _ _ _ A Hi) as (s' & _ & (Hl & _)); exists s'; exact Hl).
  assert (Cs : content_is h0 t s = true) by (rewrite (content_array h0 v0 ps t s t A Hin); destruct (str_eqb_spec t t); [reflexivity|congruence]).
  induction fuel as [|fuel IH]; intros h pre c1 c2 post junk Hf R HN HL; [lia|]. pose proof R as (ND & I & Lh & F).
  assert (Ls : nth_error h s = Some (Some t)).
  { rewrite (proj2 (F s)) by (right; apply in_or_app; right; apply in_or_app; left; apply in_or_app; right; left; reflexivity). exact (proj1 (array_arg h0 v0 ps s t A Hin)). }
  set (seg := c1 ++ s :: c2) in *. cbn [remove_rest]. replace (Z.to_nat (len seg)) with (length seg) by (unfold len; lia).
  destruct (find_last_spec (same scmp h s) (content_is h0 t) pre seg post junk) as [(E & Nn)|(s1 & x & s2 & Es & Px & Nn & E)].
  - intros y Hy. apply (removing_test scmp h0 v0 ps h (pre ++ seg ++ post) s t y G A R); [split; [exact Ls|exact (proj2 (array_arg h0 v0 ps s t A Hin))]|].
    apply in_or_app. right. apply in_or_app. left. exact Hy.
  - exfalso. rewrite Nn in Cs; [discriminate|]. unfold seg. apply in_or_app. right. left. reflexivity.
  - rewrite E. cbn [bind]. pose proof (len_nonneg s1) as L1. replace (len s1 >=? 0) with true by lia. cbv iota.
    assert (EQ : pre ++ seg ++ post = (pre ++ s1) ++ x :: (s2 ++ post)) by (rewrite Es, <- !app_assoc; reflexivity).
    rewrite EQ in *. destruct (removing_drop _ _ _ _ _ _ LV R) as (h1 & Ed & R1).
    rewrite <- len_app. rewrite (remove_impl_spec u32 (drop_str true) h h1 (pre ++ s1) x (s2 ++ post) junk); [|intros z Hz; apply u32_id; unfold in_u32; lia|exact Ed].
    cbn [bind]. assert (EL : len ((pre ++ s1) ++ x :: s2 ++ post) - 1 = len (pre ++ s1 ++ (s2 ++ post))) by (rewrite !len_app, len_cons, len_app; lia).
    pose proof (len_nonneg (pre ++ s1 ++ s2 ++ post)) as L2. rewrite EL, u32_id by (unfold in_u32; lia). rewrite <- app_assoc. rewrite <- app_assoc in R1.
    assert (FE : filter (fun x => negb (content_is h0 t x)) (seg ++ post) = filter (fun x => negb (content_is h0 t x)) (s1 ++ s2 ++ post)).
    { rewrite Es, <- app_assoc, !filter_app. cbn [app filter]. rewrite Px. cbn [negb]. rewrite ?filter_app. reflexivity. }
    rewrite FE. assert (NDseg : NoDup seg).
    { rewrite <- EQ in ND. clearbody seg. clear - ND. induction pre as [|y pre IH]; [exact (NoDup_app_l seg post ND)|]. inversion ND; subst. auto. }
    destruct (Nat.eq_dec x s) as [->|Nx].
    + assert (Ec : c1 = s1 /\ c2 = s2) by (apply (nodup_split c1 c2 s1 s2 s NDseg); exact Es). destruct Ec as (<- & <-).
      assert (Gs : nth_error h1 s = Some None).
      { destruct R1 as (_ & _ & _ & F1). apply (proj1 (F1 s)); [exact (in_map fst _ _ Hin)|]. apply NoDup_remove_2 in ND. rewrite app_assoc. exact ND. }
      assert (LV1 : forall y, In y c1 -> is_live h1 y).
      { intros y Hy. destruct R1 as (_ & I1 & _ & F1). assert (Hy1 : In y (pre ++ c1 ++ c2 ++ post)) by (apply in_or_app; right; apply in_or_app; left; exact Hy).
        destruct (LV y (I1 y Hy1)) as (a & Ha). exists a. rewrite (proj2 (F1 y) (or_intror Hy1)). exact Ha. }
      destruct fuel as [|fuel]; [unfold seg in Hf; rewrite app_length in Hf; cbn in Hf; lia|].
      change ([CNull]) with (CNull :: @nil cell). rewrite (rest_gone scmp h1 s fuel pre c1 (c2 ++ post) [] _ Gs LV1). split; intros X.
      * destruct c1 as [|y c1]; [congruence|reflexivity].
      * subst c1. exists h1, []. assert (NF : filter (fun x => negb (content_is h0 t x)) ([] ++ c2 ++ post) = c2 ++ post).
        { cbn [app]. apply filter_none. intros y Hy. apply in_app_or in Hy. destruct Hy; auto. }
        rewrite NF. cbn [app] in *. split; [reflexivity|exact R1].
    + assert (Hs1 : exists d, s1 = c1 ++ s :: d).
      { assert (Hs : In s s1).
        { assert (Hs : In s seg) by (unfold seg; apply in_or_app; right; left; reflexivity). rewrite Es in Hs. apply in_app_or in Hs. destruct Hs as [Hs|[Hs|Hs]]; [exact Hs|congruence|].
          rewrite (Nn s Hs) in Cs. discriminate. }
        destruct (in_split _ _ Hs) as (a' & d & Ed'). exists d. assert (X : c1 ++ s :: c2 = a' ++ s :: (d ++ x :: s2)) by (change (seg = a' ++ s :: d ++ x :: s2); rewrite Es, Ed', <- app_assoc; reflexivity).
        destruct (nodup_split c1 c2 a' (d ++ x :: s2) s NDseg X) as (-> & _). exact Ed'. }
      destruct Hs1 as (d & ->). apply (IH h1 pre c1 d (s2 ++ post) []).
      * rewrite Es in Hf. rewrite (app_length _ (x :: s2)) in Hf. cbn [length] in Hf. lia.
      * exact R1.
      * intros y Hy. apply in_app_or in Hy. destruct Hy; auto.
      * lia.
Qed.

(* what is left is an array without the string *)
Lemma remove_finish h v ps t h2 junk : array h v ps -> removing h (map fst ps) h2 (map fst (filter (fun p => negb (is_str t p)) ps)) ->
  array h2 (Some (map CPtr (map fst (filter (fun p => negb (is_str t p)) ps)) ++ CNull :: junk)) (fst (without t ps)) /\ frees h (map fst (snd (without t ps))) h2.
Proof.
  intros A R2. pose proof A as (H & ND & F & L). unfold without. cbn [fst snd].
  assert (Q : forall i a b, In (i, a) ps -> In (i, b) ps -> a = b).
  { intros i a b Ha Hb. destruct (F _ _ Ha) as (Q1 & _). destruct (F _ _ Hb) as (Q2 & _). rewrite Q1 in Q2. injection Q2 as ->. reflexivity. }
  assert (D : forall i, In i (map fst (filter (is_str t) ps)) -> ~ In i (map fst (filter (fun p => negb (is_str t p)) ps))).
  { intros i Hi Hj. apply in_map_iff in Hi. destruct Hi as ((j & s') & Ej & Hi). cbn in Ej. subst j. apply filter_In in Hi. destruct Hi as (Hi & Es).
    apply in_map_iff in Hj. destruct Hj as ((j & s2) & Ej & Hj). cbn in Ej. subst j. apply filter_In in Hj. destruct Hj as (Hj & Es2). rewrite (Q i s' s2 Hi Hj) in Es. rewrite Es in Es2. discriminate. }
  assert (Fr : frees h (map fst (filter (is_str t) ps)) h2).
  { apply (removing_frees _ _ _ _ _ R2). intros i. split.
    - intros Hi. split; [|exact (D i Hi)]. apply in_map_iff in Hi. destruct Hi as ((j & s') & <- & Hi). apply filter_In in Hi. exact (in_map fst _ _ (proj1 Hi)).
    - intros (Hi & Hn). apply in_map_iff in Hi. destruct Hi as ((j & s') & Ej & Hi). cbn in Ej. subst j. apply in_map_iff. exists (i, s'). split; [reflexivity|]. apply filter_In. split; [exact Hi|].
      destruct (is_str t (i, s')) eqn:X; [reflexivity|]. exfalso. apply Hn. apply in_map_iff. exists (i, s'). split; [reflexivity|]. apply filter_In. split; [exact Hi|]. rewrite X. reflexivity. }
  split; [|exact Fr]. apply (frees_array h v ps _ (map fst (filter (is_str t) ps)) h2 _ A).
  - intros p Hp. apply filter_In in Hp. exact (proj1 Hp).
  - apply NoDup_map_filter. exact ND.
  - intros i Hi Hd. exact (D i Hd Hi).
  - clear. unfold len. induction ps as [|p l IH]; cbn [filter length]; [lia|]. destruct (negb _); cbn [length]; lia.
  - exists junk. reflexivity.
  - exact Fr.
Qed.

Definition removed_all scmp h v ps s t : Prop :=
  exists h' v', strv_remove scmp h v (Some s) true = Ok (h', v') /\ array h' v' (fst (without t ps)) /\ frees h (map fst (snd (without t ps))) h'.

Lemma remove_alias_spec scmp h v ps s t a x c : good_strcmp scmp -> array h v ps -> In (s, t) ps -> ps = a ++ (x, t) :: c -> ~ In t (map snd a) ->
  (s = x -> (c = [] -> removed_all scmp h v ps s t) /\ (c <> [] -> strv_remove scmp h v (Some s) true = Fail UseAfterFree)) /\
  (forall c1 c2, c = c1 ++ (s, t) :: c2 -> (c1 = [] -> removed_all scmp h v ps s t) /\ (c1 <> [] -> strv_remove scmp h v (Some s) true = Fail UseAfterFree)).
Proof.
  intros G A Hin Eq N. pose proof (array_arg _ _ _ _ _ A Hin) as Hs. unfold removed_all.
  assert (E : strv_find scmp h v (Some s) = Ok (len a)).
  { destruct (strv_find_spec scmp h v ps s t G A Hs) as [(_ & Nt)|(a' & x' & c' & Eq' & N' & E)]; [destruct (Nt (in_map snd _ _ Hin))|]. rewrite E. f_equal.
    rewrite Eq in Eq'. clear - Eq' N N'. revert a' Eq' N'. induction a as [|(i, u) a IH]; intros [|(j, w) a'] Eq' N'; cbn [app] in Eq'.
    - reflexivity.
    - injection Eq' as -> -> _. destruct N'. left. reflexivity.
    - injection Eq' as -> -> _. destruct N. left. reflexivity.
    - injection Eq' as -> -> Eq'. rewrite !len_cons. rewrite (IH (fun X => N (or_intror X)) a' Eq' (fun X => N' (or_intror X))). reflexivity. }
  pose proof A as (H & ND & F & L). pose proof (len_nonneg a). pose proof (len_nonneg c). assert (Lps : len ps = len a + 1 + len c) by (rewrite Eq, len_app, len_cons; lia).
  destruct v as [b|]; [|cbn in H; rewrite Eq, map_app in H; destruct a; discriminate]. cbn [holds] in H. destruct H as (junk & ->).
  cbn [strv_find] in E. unfold strv_remove. rewrite E. cbn [bind]. replace (len a >=? 0) with true by lia. rewrite (array_length h _ _ A). cbn [bind].
  assert (map fst ps = map fst a ++ x :: map fst c) as Eps by (rewrite Eq, map_app; reflexivity).
  assert (forall i, In i (map fst ps) -> is_live h i) as LV. { intros i Hi. destruct (array_arg_fst _ _ _ _ A Hi) as (s' & _ & (Hl & _)). exists s'. auto. }
  pose proof (removing_init h (map fst ps) ND) as R0. rewrite Eps in R0 at 2. destruct (removing_drop _ _ _ _ _ _ LV R0) as (h1 & Ed & R1).
  assert (remove_impl u32 (drop_str true) h (map CPtr (map fst ps) ++ CNull :: junk) (len a) (len ps) = Ok (h1, map CPtr (map fst a ++ map fst c) ++ [CNull])) as ER.
  { rewrite Eps, <- (len_map fst a). replace (len ps) with (len (map fst a ++ x :: map fst c)) by (rewrite <- Eps, len_map; auto).
    apply remove_impl_spec; auto. intros z Hz. apply u32_id. unfold in_u32. rewrite len_app, len_cons, !len_map in Hz. lia. }
  rewrite ER. cbn [bind]. rewrite (u32_id (len ps - 1)), (u32_id (len a)) by (unfold in_u32; lia).
  replace (len ps - 1 - len a) with (len c) by lia. rewrite u32_id, s32_id by (unfold in_u32, in_s32; lia).
  replace (len ps - 1) with (len (map fst a ++ map fst c)) by (rewrite len_app, !len_map; lia).
  assert (EK : map fst a ++ filter (fun x => negb (content_is h t x)) (map fst c) = map fst (filter (fun p => negb (is_str t p)) ps)).
  { rewrite Eq, filter_app. cbn [filter]. unfold is_str at 2. cbn [snd]. destruct (str_eqb_spec t t) as [_|]; [|congruence]. cbn [negb].
    rewrite (proj1 (filter_not_in t a N)), map_app. f_equal. symmetry. apply (map_filter_fst h _ ps t true A). intros p Hp. rewrite Eq. apply in_or_app. right. right. auto. }
  split.
  - intros ->. assert (G1 : nth_error h1 x = Some None).
    { destruct R1 as (_ & _ & _ & F1). apply (proj1 (F1 x)); [exact (in_map fst _ _ Hin)|]. rewrite Eps in ND. apply NoDup_remove_2 in ND. exact ND. }
    assert (LV1 : forall y, In y (map fst c) -> is_live h1 y).
    { intros y Hy. destruct R1 as (_ & I1 & _ & F1). assert (Hy1 : In y (map fst a ++ map fst c)) by (apply in_or_app; right; exact Hy).
      destruct (LV y (I1 y Hy1)) as (u & Hu). exists u. rewrite (proj2 (F1 y) (or_intror Hy1)). exact Hu. }
    pose proof (rest_gone scmp h1 x (length (map CPtr (map fst a ++ map fst c))) (map fst a) (map fst c) [] [] (len (map fst a ++ map fst c)) G1 LV1) as RG.
    rewrite app_nil_r, !len_map in RG. rewrite app_length. cbn [length]. rewrite Nat.add_1_r.
    change (map CPtr (map fst a ++ map fst c) ++ CNull :: []) with (map CPtr (map fst a ++ map fst c) ++ [CNull]) in RG. rewrite RG. split; intros X.
    + subst c. cbn [map] in *. cbn [bind]. cbn [filter] in EK. rewrite EK in *. eexists _, _. split; [reflexivity|]. exact (remove_finish h _ ps t h1 [] A R1).
    + destruct c as [|(j, u) c]; [congruence|]. reflexivity.
  - intros c1 c2 ->. assert (Ec : map fst (c1 ++ (s, t) :: c2) = map fst c1 ++ s :: map fst c2) by (rewrite map_app; reflexivity). rewrite Ec in *.
    destruct (rest_alias scmp h _ ps s t G A Hin (length (map CPtr (map fst a ++ map fst c1 ++ s :: map fst c2) ++ [CNull])) h1 (map fst a) (map fst c1) (map fst c2) [] []) as (RA & RB).
    + rewrite (app_length (map CPtr _)), (map_length CPtr), (app_length (map fst a)). cbn [length]. lia.
    + rewrite app_nil_r. exact R1.
    + intros y [].
    + rewrite app_nil_r, len_app, len_map. rewrite len_app, len_cons in Lps. rewrite len_app, len_cons, !len_map. pose proof (len_nonneg c1). pose proof (len_nonneg c2). lia.
    + rewrite !app_nil_r in RA, RB. rewrite len_map in RA, RB.
      replace (len (map fst c1 ++ s :: map fst c2)) with (len (c1 ++ (s, t) :: c2)) in RA, RB by (rewrite !len_app, !len_cons, !len_map; reflexivity).
      split; intros X.
      * destruct RB as (h2 & junk' & E2 & R2); [rewrite X; reflexivity|].
        change (map CPtr (map fst a ++ map fst c1 ++ s :: map fst c2) ++ CNull :: []) with (map CPtr (map fst a ++ map fst c1 ++ s :: map fst c2) ++ [CNull]) in E2.
        rewrite E2. cbn [bind]. rewrite EK in *. eexists _, _. split; [reflexivity|]. exact (remove_finish h _ ps t h2 junk' A R2).
      * change (map CPtr (map fst a ++ map fst c1 ++ s :: map fst c2) ++ CNull :: []) with (map CPtr (map fst a ++ map fst c1 ++ s :: map fst c2) ++ [CNull]) in RA.
        rewrite RA; [reflexivity|]. destruct c1; [congruence|discriminate].
Qed.

Lemma first_split t (l : list (nat * str)) : In t (map snd l) -> exists a x c, l = a ++ (x, t) :: c /\ ~ In t (map snd a).
Proof.
  induction l as [|(i, u) l IH]; intros X; [destruct X|]. destruct (list_eq_dec Z.eq_dec u t) as [->|N].
  - exists [], i, l. split; [reflexivity|intros []].
  - destruct X as [X|X]; [cbn in X; congruence|]. destruct (IH X) as (a & x & c & -> & Na). exists ((i, u) :: a), x, c. split; [reflexivity|].
    intros [Y|Y]; [cbn in Y; congruence|exact (Na Y)].
Qed.
Lemma first_unique t l f g : first_at t l f -> first_at t l g -> f = g.
Proof.
  intros (F1 & F2) (G1 & G2). destruct (Nat.lt_trichotomy f g) as [X|[X|X]]; [destruct (G2 f X F1)|exact X|destruct (F2 g X G1)].
Qed.
Lemma alias_spec scmp h v ps i s t : good_strcmp scmp -> array h v ps -> nth_error ps i = Some (s, t) ->
  (alias_ok (map snd ps) i -> removed_all scmp h v ps s t) /\ (~ alias_ok (map snd ps) i -> strv_remove scmp h v (Some s) true = Fail UseAfterFree).
Proof.
  intros G A E. pose proof (nth_error_In _ _ E) as Hin. destruct (first_split t ps (in_map snd _ _ Hin)) as (a & x & c & Eq & N).
  destruct (remove_alias_spec scmp h v ps s t a x c G A Hin Eq N) as (S1 & S2).
  assert (Fa : first_at t (map snd ps) (length a)).
  { rewrite Eq, map_app. split; [rewrite nth_error_app2 by (rewrite map_length; lia); rewrite map_length, Nat.sub_diag; reflexivity|].
    intros j Hj X. apply N. rewrite nth_error_app1 in X by (rewrite map_length; lia). exact (nth_error_In _ _ X). }
  assert (Ft : nth_error (map snd ps) i = Some t) by (rewrite nth_error_map, E; reflexivity).
  assert (AO : alias_ok (map snd ps) i <-> (i = length a /\ S i = length ps) \/ i = S (length a)).
  { split.
    - intros (u & f & E1 & F1 & X). rewrite Ft in E1. injection E1 as <-. rewrite (first_unique t _ _ _ F1 Fa), map_length in X. exact X.
    - intros X. exists t, (length a). rewrite map_length. split; [exact Ft|]. split; [exact Fa|exact X]. }
  rewrite AO. destruct (Nat.lt_trichotomy i (length a)) as [L|[L|L]].
  - exfalso. rewrite Eq, nth_error_app1 in E by exact L. exact (N (in_map snd _ _ (nth_error_In _ _ E))).
  - rewrite Eq, L, nth_error_app2, Nat.sub_diag in E by lia. cbn [nth_error] in E. injection E as ->. destruct (S1 eq_refl) as (C1 & C2).
    assert (Ll : length ps = S (length a + length c)) by (rewrite Eq, app_length; cbn [length]; lia). split; intros X.
    + apply C1. destruct X as [(_ & X)|X]; [|lia]. destruct c; [reflexivity|cbn [length] in Ll; lia].
    + apply C2. intros ->. apply X. left. cbn [length] in Ll. lia.
  - rewrite Eq, nth_error_app2 in E by lia. destruct (i - length a)%nat as [|k] eqn:K; [lia|]. cbn [nth_error] in E.
    destruct (nth_error_split c k E) as (c1 & c2 & Ec & Lk). destruct (S2 c1 c2 Ec) as (C1 & C2). split; intros X.
    + apply C1. destruct X as [(X & _)|X]; [lia|]. destruct c1; [reflexivity|cbn [length] in Lk; lia].
    + apply C2. intros ->. apply X. right. cbn [length] in Lk. lia.
Qed.
