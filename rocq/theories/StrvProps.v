(* Properties of string arrays (gutil_strv.c) *)
From Verif Require Import Base PtrvModel PtrvSpec PtrvProofs StrvModel StrvSpec StrvProofs StrvAlias.
From Coq Require Import ZifyBool.

(* a strcmp, for the examples *)
Definition ex_scmp : strcmp_fun := fun a b => sign_of (lexc a b).
Lemma ex_scmp_good : good_strcmp ex_scmp.
Proof. intros a b _ _. unfold ex_scmp. destruct (lexc a b); cbn; lia. Qed.

(* b, a, b *)
Definition ex_h : strs := [Some [98]; Some [97]; Some [98]; Some [98]; None; Some [32; 99; 32; 32]].
Definition ex_v : vec := Some [CPtr 0; CPtr 1; CPtr 2; CNull; CJunk].
Definition ex_ps : list (nat * str) := [(0%nat, [98]); (1%nat, [97]); (2%nat, [98])].
Lemma ex_array : array ex_h ex_v ex_ps.
Proof.
  split; [exists [CJunk]; reflexivity|]. split; [repeat constructor; cbn; intuition discriminate|]. split; [|reflexivity].
  intros i s [E|[E|[E|[]]]]; injection E as <- <-; (split; [reflexivity|repeat constructor]).
Qed.
Lemma ex_arg : arg ex_h 3 [98].
Proof. split; [reflexivity|repeat constructor]. Qed.

(* ================= C46: queries ================= *)
(* Missing: arrays of 2^31 and more strings (the length is a guint, positions are ints; see below) *)
Theorem C46_length_partial h v ps : array h v ps -> strv_length v = Ok (len ps).
Proof. exact (array_length h v ps). Qed.
Print Assumptions C46_length_partial.

(* the number of strings is truncated to 32 bits *)
Theorem C46_length_refuted : exists v l, holds v l /\ l <> [] /\ strv_length v = Ok 0.
Proof.
  assert (exists n, n = 2^32) as (n & Hn) by eauto.
  exists (Some (map CPtr (repeat 0%nat (Z.to_nat n)) ++ [CNull])), (repeat 0%nat (Z.to_nat n)).
  assert (len (repeat 0%nat (Z.to_nat n)) = n) as L by (unfold len; rewrite repeat_length; lia).
  split; [exists []; reflexivity|]. split; [intros E; rewrite E, len_nil in L; lia|].
  unfold strv_length. rewrite (length_spec _ (repeat 0%nat (Z.to_nat n))); [|exists []; reflexivity|lia]. cbn [bind]. rewrite L, Hn. reflexivity.
Qed.
Print Assumptions C46_length_refuted.

(* for arrays of any size *)
Theorem C46_at h v ps i : strings h v ps -> 0 <= i < 2^32 -> strv_at v i = Ok (option_map fst (nth_error ps (Z.to_nat i))).
Proof.
  intros (H & _) Hi. pose proof (len_nonneg ps). destruct v as [b|]; cbn [strv_at].
  - destruct H as (junk & ->). rewrite (at_loop_spec (map fst ps) junk i); rewrite ?len_map; try lia; [|rewrite app_length, !map_length; unfold len; cbn [length]; lia].
    cbn [bind]. destruct (Z.eqb_spec (Z.min i (len ps)) i) as [E|E].
    + rewrite E. destruct (Z.eq_dec i (len ps)) as [->|N].
      * rewrite <- (len_map fst ps). rewrite at_end. rewrite len_map. rewrite (proj2 (nth_error_None ps _)); [reflexivity|unfold len; lia].
      * destruct (nth_error ps (Z.to_nat i)) as [(x & s)|] eqn:En; [|apply nth_error_None in En; unfold len in *; lia].
        rewrite <- (Z2Nat.id i) at 1 by lia. apply at_in. rewrite nth_error_map, En. reflexivity.
    + rewrite (proj2 (nth_error_None ps _)); [reflexivity|unfold len in *; lia].
  - cbn in H. destruct ps; [|discriminate]. destruct (Z.to_nat i); reflexivity.
Qed.
Print Assumptions C46_at.

(* Missing: as above *)
Theorem C46_last_partial h v ps : array h v ps ->
  (ps = [] -> strv_last v = Ok None) /\ (forall q x s, ps = q ++ [(x, s)] -> strv_last v = Ok (Some x)).
Proof.
  intros (H & _ & _ & L). split.
  - intros ->. destruct v as [b|]; [|reflexivity]. destruct H as (junk & ->). reflexivity.
  - intros q x s ->. destruct v as [b|]; [|cbn in H; rewrite map_app in H; destruct q; discriminate]. destruct H as (junk & ->). pose proof (len_nonneg q).
    rewrite len_app in L. change (len [(x, s)]) with 1 in L.
    cbn [strv_last]. assert (len (map fst (q ++ [(x, s)])) = len q + 1) as LQ by (rewrite len_map, len_app; reflexivity).
    assert (exists y, at_ (map CPtr (map fst (q ++ [(x, s)])) ++ CNull :: junk) 0 = Ok (Some y)) as (y & E).
    { destruct q as [|[y r] q]; cbn; eauto. }
    rewrite E. cbn [bind]. rewrite (last_loop_spec (map fst (q ++ [(x, s)])) junk); [|lia|unfold len; rewrite app_length, (map_length CPtr); lia|lia]. cbn [bind].
    rewrite LQ. replace (len q + 1 - 1) with (Z.of_nat (length q)) by (unfold len; lia). apply at_in. rewrite map_app, nth_error_app2 by (rewrite map_length; lia).
    rewrite map_length, Nat.sub_diag. reflexivity.
Qed.
Print Assumptions C46_last_partial.

(* Missing: as above *)
Theorem C46_find_partial scmp h v ps s t : good_strcmp scmp -> array h v ps -> arg h s t ->
  (strv_find scmp h v (Some s) = Ok (-1) /\ strv_find_last scmp h v (Some s) = Ok (-1) /\ strv_contains scmp h v (Some s) = Ok false /\ ~ In t (map snd ps)) \/
  (exists a x c a' x' c', ps = a ++ (x, t) :: c /\ ~ In t (map snd a) /\ strv_find scmp h v (Some s) = Ok (len a) /\
     ps = a' ++ (x', t) :: c' /\ ~ In t (map snd c') /\ strv_find_last scmp h v (Some s) = Ok (len a') /\
     strv_contains scmp h v (Some s) = Ok true).
Proof.
  intros G A Hs. unfold strv_contains. destruct (strv_find_spec scmp h v ps s t G A Hs) as [(E & N)|(a & x & c & Ep & N & E)];
    destruct (strv_find_last_spec scmp h v ps s t G A Hs) as [(E' & N')|(a' & x' & c' & Ep' & N' & E')]; rewrite E, E'; cbn [bind].
  - left. repeat split; auto.
  - exfalso. apply N. rewrite Ep', map_app. apply in_or_app. right. left. auto.
  - exfalso. apply N'. rewrite Ep, map_app. apply in_or_app. right. left. auto.
  - right. exists a, x, c, a', x', c'. repeat split; auto. pose proof (len_nonneg a). f_equal. lia.
Qed.
Print Assumptions C46_find_partial.

(* Arrays are equal if their strings are; NULL is an empty array. Missing: as above *)
Theorem C46_equal_partial scmp h a1 v1 a2 v2 ps1 ps2 : good_strcmp scmp -> array h v1 ps1 -> array h v2 ps2 -> (a1 = a2 -> v1 = v2) ->
  exists r, strv_equal scmp h a1 v1 a2 v2 = Ok r /\ (r = true <-> map snd ps1 = map snd ps2).
Proof. exact (equal_spec scmp h a1 v1 a2 v2 ps1 ps2). Qed.
Print Assumptions C46_equal_partial.

Example C46_example : array ex_h ex_v ex_ps /\ arg ex_h 3 [98] /\ strv_length ex_v = Ok 3 /\ strv_at ex_v 1 = Ok (Some 1%nat) /\ strv_at ex_v 3 = Ok None /\
  strv_last ex_v = Ok (Some 2%nat) /\ strv_find ex_scmp ex_h ex_v (Some 3%nat) = Ok 0 /\ strv_find_last ex_scmp ex_h ex_v (Some 3%nat) = Ok 2 /\
  strv_contains ex_scmp ex_h ex_v (Some 5%nat) = Ok false /\ strv_equal ex_scmp ex_h 1 ex_v 2 (Some [CPtr 3; CPtr 1; CPtr 2; CNull]) = Ok true.
Proof. split; [apply ex_array|]. split; [apply ex_arg|]. repeat split; reflexivity. Qed.

(* ================= C47: updates ================= *)
(* Missing: arrays of 2^31 and more strings *)
Theorem C47_add_partial h v ps s t : array h v ps -> arg h s t -> len ps + 1 < 2^31 ->
  exists v', strv_add h v (Some s) = Ok (h ++ [Some t], v') /\ array (h ++ [Some t]) v' (ps ++ [(length h, t)]).
Proof. exact (add_spec h v ps s t). Qed.
Print Assumptions C47_add_partial.

(* The copies are new strings. Missing: as above *)
Theorem C47_addv_partial h v ps args ts : array h v ps -> Forall2 (arg h) args ts -> len ps + len ts < 2^31 ->
  exists v' new, strv_addv h v args = Ok (h ++ map Some ts, v') /\ array (h ++ map Some ts) v' (ps ++ new) /\ map snd new = ts /\
    forall i, In i (map fst new) -> nth_error h i = None.
Proof.
  intros A F L. destruct (addv_spec h v ps args ts A F L) as (v' & E & A'). exists v', (number (length h) ts). split; auto. split; auto. split; [apply number_snd|].
  intros i Hi. apply number_fst_in in Hi. apply nth_error_None. lia.
Qed.
Print Assumptions C47_addv_partial.

(* The string at the position goes, and is freed if wanted. Missing: as above *)
Theorem C47_remove_at_partial h v ps pos fr : array h v ps ->
  (forall a x t c, ps = a ++ (x, t) :: c -> pos = len a ->
     exists h' v', strv_remove_at h v pos fr = Ok (h', v') /\ array h' v' (a ++ c) /\ frees h (if (fr : bool) then [x] else []) h') /\
  (pos < 0 \/ len ps <= pos -> strv_remove_at h v pos fr = Ok (h, v)).
Proof.
  intros A. split.
  - intros a x t c -> ->. apply (remove_at_spec h v a x t c fr A).
  - intros Hp. unfold strv_remove_at. destruct v as [b|]; auto. destruct (Z.geb_spec pos 0); auto. rewrite (array_length h _ ps A). cbn [bind].
    pose proof (len_nonneg ps). destruct A as (_ & _ & _ & L). rewrite s32_id by (unfold in_s32; lia). replace (pos <? len ps) with false by lia. auto.
Qed.
Print Assumptions C47_remove_at_partial.

(* The first string, or all strings, equal to s go and are freed. Missing: as above, and s being one of the strings of the array
   if all are to be removed (see the next theorem) *)
Theorem C47_remove_partial scmp h v ps s t all : good_strcmp scmp -> array h v ps -> arg h s t -> (all = true -> ~ In s (map fst ps)) ->
  let (k, d) := if (all : bool) then without t ps else without_first t ps in
  exists h' v', strv_remove scmp h v (Some s) all = Ok (h', v') /\ array h' v' k /\ frees h (map fst d) h'.
Proof. exact (remove_spec scmp h v ps s t all). Qed.
Print Assumptions C47_remove_partial.

(* All strings equal to one of the array itself: all of them go if it is the only one and the last string of the array, or is right behind the first
   of them. In all other cases it is used after it was freed. Missing: arrays of 2^31 strings. *)
Theorem C47_remove_alias_partial scmp h v ps i s t : good_strcmp scmp -> array h v ps -> nth_error ps i = Some (s, t) ->
  (alias_ok (map snd ps) i -> exists h' v', strv_remove scmp h v (Some s) true = Ok (h', v') /\ array h' v' (fst (without t ps)) /\ frees h (map fst (snd (without t ps))) h') /\
  (~ alias_ok (map snd ps) i -> strv_remove scmp h v (Some s) true = Fail UseAfterFree).
Proof. exact (alias_spec scmp h v ps i s t). Qed.
Print Assumptions C47_remove_alias_partial.
Definition ex_aab : strs := [Some [97]; Some [97]; Some [98]].
Definition ex_aab_v : vec := Some [CPtr 0; CPtr 1; CPtr 2; CNull].
Definition ex_aab_ps : list (nat * str) := [(0%nat, [97]); (1%nat, [97]); (2%nat, [98])].
Example C47_example_alias : array ex_aab ex_aab_v ex_aab_ps /\ alias_ok (map snd ex_aab_ps) 1 /\ alias_ok (map snd ex_aab_ps) 2 /\ ~ alias_ok (map snd ex_aab_ps) 0 /\
  strv_remove ex_scmp ex_aab ex_aab_v (Some 1%nat) true = Ok ([None; None; Some [98]], Some [CPtr 2; CNull]) /\
  strv_remove ex_scmp ex_aab ex_aab_v (Some 2%nat) true = Ok ([Some [97]; Some [97]; None], Some [CPtr 0; CPtr 1; CNull]) /\
  strv_remove ex_scmp ex_aab ex_aab_v (Some 0%nat) true = Fail UseAfterFree.
Proof.
  split; [|split; [|split; [|split]]].
  - split; [exists []; reflexivity|]. split; [repeat constructor; cbn; intuition discriminate|]. split; [|reflexivity].
    intros i s [E|[E|[E|[]]]]; injection E as <- <-; (split; [reflexivity|repeat constructor]).
  - exists [97], 0%nat. split; [reflexivity|]. split; [split; [reflexivity|intros j L; lia]|]. right. reflexivity.
  - exists [98], 2%nat. split; [reflexivity|]. split; [split; [reflexivity|]|left; split; reflexivity]. intros [|[|j]] L; [discriminate|discriminate|lia].
  - intros (t & f & E & (F1 & F2) & [(X & Y)|X]); [discriminate Y|discriminate X].
  - repeat split; reflexivity.
Qed.

(* gutil_strv_remove(sv, sv[0], TRUE) uses the string it has just freed *)
Theorem C47_remove_alias_refuted : exists scmp h v ps s t, good_strcmp scmp /\ array h v ps /\ arg h s t /\ In (s, t) ps /\
  strv_remove scmp h v (Some s) true = Fail UseAfterFree.
Proof.
  exists ex_scmp, ex_h, ex_v, ex_ps, 0%nat, [98]. split; [apply ex_scmp_good|]. split; [apply ex_array|]. split; [split; [reflexivity|repeat constructor]|].
  split; [left; reflexivity|reflexivity].
Qed.
Print Assumptions C47_remove_alias_refuted.

Example C47_example : array ex_h ex_v ex_ps /\ arg ex_h 3 [98] /\ ~ In 3%nat (map fst ex_ps) /\
  strv_remove ex_scmp ex_h ex_v (Some 3%nat) true = Ok ([None; Some [97]; None; Some [98]; None; Some [32; 99; 32; 32]], Some [CPtr 1; CNull]) /\
  strv_add ex_h ex_v (Some 3%nat) = Ok (ex_h ++ [Some [98]], Some [CPtr 0; CPtr 1; CPtr 2; CPtr 6; CNull]) /\
  strv_addv ex_h ex_v [3%nat; 1%nat] = Ok (ex_h ++ [Some [98]; Some [97]], Some [CPtr 0; CPtr 1; CPtr 2; CPtr 6; CPtr 7; CNull]) /\
  strv_remove_at ex_h ex_v 1 true = Ok ([Some [98]; None; Some [98]; Some [98]; None; Some [32; 99; 32; 32]], Some [CPtr 0; CPtr 2; CNull]).
Proof. split; [apply ex_array|]. split; [apply ex_arg|]. split; [cbn; intuition discriminate|]. repeat split; reflexivity. Qed.

(* ================= C48: duplicates ================= *)
(* Missing: arrays of 2^31 and more strings *)
Theorem C48_remove_dups_partial scmp h v ps : good_strcmp scmp -> array h v ps ->
  exists h' v', strv_remove_dups scmp h v = Ok (h', v') /\ array h' v' (fst (uniq [] ps)) /\ frees h (map fst (snd (uniq [] ps))) h'.
Proof. exact (remove_dups_spec scmp h v ps). Qed.
Print Assumptions C48_remove_dups_partial.

Example C48_example : array ex_h ex_v ex_ps /\
  strv_remove_dups ex_scmp ex_h ex_v = Ok ([Some [98]; Some [97]; None; Some [98]; None; Some [32; 99; 32; 32]], Some [CPtr 0; CPtr 1; CNull]).
Proof. split; [apply ex_array|reflexivity]. Qed.

(* An array of n strings, the first one b, all others a *)
Definition many_s (i : nat) : str := match i with O => [98] | _ => [97] end.
Definition many_h (n : nat) : strs := map (fun i => Some (many_s i)) (seq 0 n).
Definition many_v (n : nat) : vec := Some (map CPtr (seq 0 n) ++ [CNull]).
Definition many_ps (n : nat) : list (nat * str) := map (fun i => (i, many_s i)) (seq 0 n).
Lemma many_fst n : map fst (many_ps n) = seq 0 n.
Proof. unfold many_ps. rewrite map_map. cbn [fst]. apply map_id. Qed.
Lemma many_strings n : strings (many_h n) (many_v n) (many_ps n).
Proof.
  split; [rewrite many_fst; exists []; reflexivity|]. rewrite many_fst. split; [apply seq_NoDup|]. intros i s M. unfold many_ps in M. apply in_map_iff in M. destruct M as (j & E & M).
  injection E as -> <-. apply in_seq in M. split; [|destruct i; repeat constructor]. unfold many_h. rewrite nth_error_map. replace (nth_error (seq 0 n) i) with (Some i); [reflexivity|].
  symmetry. rewrite (nth_error_nth' _ 0%nat) by (rewrite seq_length; lia). rewrite seq_nth by lia. reflexivity.
Qed.
Lemma many_length n : Z.of_nat n = 2^32 -> strv_length (many_v n) = Ok 0.
Proof.
  intros H. unfold strv_length. rewrite (length_spec _ (seq 0 n)); [|exists []; reflexivity|unfold len; rewrite seq_length; lia]. cbn [bind]. unfold len. rewrite seq_length, H. reflexivity.
Qed.
Lemma many_exists : exists n, Z.of_nat n = 2^32 /\ (3 <= n)%nat.
Proof. assert (exists z, z = 2^32) as (z & Hz) by eauto. exists (Z.to_nat z). lia. Qed.

(* Of 2^32 strings none is removed *)
Theorem C48_remove_dups_refuted : exists h v ps scmp, good_strcmp scmp /\ strings h v ps /\ snd (uniq [] ps) <> [] /\ strv_remove_dups scmp h v = Ok (h, v).
Proof.
  destruct many_exists as (n & Hn & L). exists (many_h n), (many_v n), (many_ps n), ex_scmp. split; [exact ex_scmp_good|]. split; [apply many_strings|]. split.
  - destruct n as [|[|[|n]]]; try lia. unfold many_ps. cbn [seq map many_s uniq snd existsb]. change (str_eqb [97] [98]) with false. cbn [orb]. change (str_eqb [97] [97]) with true. cbn [orb existsb].
    destruct (uniq _ _) as [k d]. cbn [snd]. discriminate.
  - unfold strv_remove_dups. rewrite (many_length n Hn). unfold many_v. cbn [bind dups_loop]. reflexivity.
Qed.
Print Assumptions C48_remove_dups_refuted.

(* ================= C49: sorting and searching ================= *)
(* Missing: arrays of 2^31 and more strings *)
Theorem C49_sort_partial qsort scmp h v ps asc : good_qsort qsort -> good_strcmp scmp -> array h v ps ->
  exists v' ps', strv_sort qsort scmp h v asc = Ok v' /\ array h v' ps' /\ Permutation ps ps' /\ StronglySorted (in_order asc) (map snd ps').
Proof. exact (sort_spec qsort scmp h v ps asc). Qed.
Print Assumptions C49_sort_partial.

(* Missing: as above *)
Theorem C49_bsearch_partial scmp h v ps s t asc : good_strcmp scmp -> array h v ps -> arg h s t -> StronglySorted (in_order asc) (map snd ps) ->
  (strv_bsearch scmp h v (Some s) asc = Ok (-1) /\ ~ In t (map snd ps)) \/
  (exists i, strv_bsearch scmp h v (Some s) asc = Ok i /\ 0 <= i /\ nth_error (map snd ps) (Z.to_nat i) = Some t).
Proof. exact (bsearch_spec scmp h v ps s t asc). Qed.
Print Assumptions C49_bsearch_partial.

(* Without an array or without a string nothing is found *)
Theorem C49_bsearch_null scmp h v s asc : v = None \/ s = None -> strv_bsearch scmp h v s asc = Ok (-1).
Proof. intros [->| ->]; [destruct s|]; reflexivity. Qed.
Print Assumptions C49_bsearch_null.
Example C49_example_null : strv_bsearch ex_scmp ex_h (Some [CPtr 1; CPtr 0; CPtr 2; CNull]) None true = Ok (-1) /\ strv_bsearch ex_scmp ex_h None (Some 3%nat) true = Ok (-1).
Proof. split; reflexivity. Qed.

(* 2^32 strings are not sorted, and nothing is found among them *)
Theorem C49_sort_refuted : exists h v ps, strings h v ps /\ ~ StronglySorted (in_order true) (map snd ps) /\ forall qsort scmp, strv_sort qsort scmp h v true = Ok v.
Proof.
  destruct many_exists as (n & Hn & L). exists (many_h n), (many_v n), (many_ps n). split; [apply many_strings|]. split.
  - destruct n as [|[|n]]; try lia. unfold many_ps. cbn [seq map many_s snd]. intros Q. inversion Q as [|? ? _ F]; subst. inversion F as [|? ? C _]; subst. apply C. reflexivity.
  - intros qsort scmp. unfold strv_sort. rewrite (many_length n Hn). reflexivity.
Qed.
Print Assumptions C49_sort_refuted.
Theorem C49_bsearch_refuted : exists h v ps s t scmp, good_strcmp scmp /\ strings h v ps /\ arg h s t /\ StronglySorted (in_order false) (map snd ps) /\ In t (map snd ps) /\
  strv_bsearch scmp h v (Some s) false = Ok (-1).
Proof.
  destruct many_exists as (n & Hn & L). exists (many_h n), (many_v n), (many_ps n), 0%nat, [98], ex_scmp. split; [exact ex_scmp_good|]. split; [apply many_strings|].
  split; [|split; [|split]].
  - destruct n as [|n]; [lia|]. split; [reflexivity|repeat constructor].
  - assert (T : forall a k, StronglySorted (in_order false) (map snd (map (fun i => (i, many_s i)) (seq (S a) k))) /\ Forall (fun t => t = [97]) (map snd (map (fun i => (i, many_s i)) (seq (S a) k)))).
    { intros a k. revert a. induction k as [|k IH]; intros a; cbn [seq map snd many_s]; [split; constructor|]. destruct (IH (S a)) as [I1 I2]. split; [|constructor; auto]. constructor; [exact I1|].
      revert I2. apply Forall_impl. intros t ->. discriminate. }
    destruct n as [|n]; [lia|]. unfold many_ps. cbn [seq map snd many_s]. destruct (T 0%nat n) as [I1 I2]. constructor; [exact I1|]. revert I2. apply Forall_impl. intros t ->. discriminate.
  - destruct n as [|n]; [lia|]. left. reflexivity.
  - unfold strv_bsearch. rewrite (many_length n Hn). reflexivity.
Qed.
Print Assumptions C49_bsearch_refuted.

(* a qsort: sorting by insertion *)
Fixpoint ins (cmp : nat -> nat -> Z) (x : nat) (l : list nat) : list nat :=
  match l with [] => [x] | y :: t => if cmp x y <=? 0 then x :: l else y :: ins cmp x t end.
Definition isort : qsort_fun := fun cmp l => fold_right (ins cmp) [] l.
Lemma ins_perm cmp x l : Permutation (x :: l) (ins cmp x l).
Proof. induction l as [|y l IH]; cbn; auto. destruct (cmp x y <=? 0); auto. rewrite perm_swap. constructor. auto. Qed.
Lemma isort_good : good_qsort isort.
Proof.
  intros cmp l. unfold isort. induction l as [|x l IH]; intros C; cbn [fold_right]; [split; constructor|].
  destruct IH as (P & S). { intros a b c Ha Hb Hc. apply C; right; auto. }
  split; [rewrite <- ins_perm; constructor; auto|].
  assert (forall y, In y (fold_right (ins cmp) [] l) -> In y (x :: l)) as I. { intros y Hy. right. eapply Permutation_in; [symmetry; exact P|auto]. }
  revert I S. clear P. generalize (fold_right (ins cmp) [] l). intros m I S. induction m as [|y m IH]; cbn [ins]; [repeat constructor|].
  inversion S as [|? ? S1 S2]; subst. rewrite Forall_forall in S2. assert (In x (x :: l)) as Hx by (left; auto). assert (In y (x :: l)) as Hy by (apply I; left; auto).
  destruct (Z.leb_spec (cmp x y) 0) as [L|L].
  - constructor; [constructor; auto; apply Forall_forall; auto|]. constructor; auto. apply Forall_forall. intros z Hz.
    apply (proj2 (C x y z Hx Hy (I z (or_intror Hz)))); auto.
  - constructor; [apply IH; auto; intros z Hz; apply I; right; auto|]. apply Forall_forall. intros z Hz. apply (Permutation_in z (Permutation_sym (ins_perm cmp x m))) in Hz.
    destruct Hz as [<-|Hz]; auto. destruct (C y x x Hy Hx Hx) as (Q & _). lia.
Qed.

Example C49_example : good_qsort isort /\ good_strcmp ex_scmp /\ array ex_h ex_v ex_ps /\
  strv_sort isort ex_scmp ex_h ex_v false = Ok (Some [CPtr 0; CPtr 2; CPtr 1; CNull; CJunk]) /\
  array ex_h (Some [CPtr 1; CPtr 0; CPtr 2; CNull]) [(1%nat, [97]); (0%nat, [98]); (2%nat, [98])] /\
  StronglySorted (in_order true) [[97]; [98]; [98]] /\ strv_bsearch ex_scmp ex_h (Some [CPtr 1; CPtr 0; CPtr 2; CNull]) (Some 3%nat) true = Ok 1.
Proof.
  split; [apply isort_good|]. split; [apply ex_scmp_good|]. split; [apply ex_array|]. split; [reflexivity|]. split.
  - split; [exists []; reflexivity|]. split; [repeat constructor; cbn; intuition discriminate|]. split; [|reflexivity].
    intros i s [E|[E|[E|[]]]]; injection E as <- <-; (split; [reflexivity|repeat constructor]).
  - split; [repeat constructor; discriminate|reflexivity].
Qed.

(* ================= C50: white space ================= *)
(* Each string loses the white space around it; the array and all other strings stay. *)
Theorem C50_strip h v ps : strings h v ps ->
  exists h' ps', strv_strip h v = Ok h' /\ strings h' v ps' /\ Forall2 (fun p q => fst p = fst q /\ stripped (snd p) (snd q)) ps ps' /\
    length h' = length h /\ forall i, ~ In i (map fst ps) -> nth_error h' i = nth_error h i.
Proof. exact (strip_spec h v ps). Qed.
Print Assumptions C50_strip.

Example C50_example : strings ex_h (Some [CPtr 5; CPtr 0; CNull]) [(5%nat, [32; 99; 32; 32]); (0%nat, [98])] /\
  strv_strip ex_h (Some [CPtr 5; CPtr 0; CNull]) = Ok [Some [98]; Some [97]; Some [98]; Some [98]; None; Some [99]].
Proof.
  split; [|reflexivity]. split; [exists []; reflexivity|]. split; [repeat constructor; cbn; intuition discriminate|].
  intros i s [E|[E|[]]]; injection E as <- <-; (split; [reflexivity|repeat constructor]).
Qed.
