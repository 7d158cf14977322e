(* C36 to C38 once more: what exactly searching and removing do in int arrays of any size, with unspecified elements or without *)
From Verif Require Import Base IntArrayModel IntArraySpec IntArrayProofs IntArrayProps.
From Coq Require Import Permutation ZifyBool.

(* x are the elements in front of the first v or the first unspecified element, y the others *)
Definition seeks (v : Z) (l x y : list (option Z)) : Prop :=
  l = x ++ y /\ known x /\ ~ In (Some v) x /\ (y = [] \/ exists c z, y = c :: z /\ (c = Some v \/ c = None)).

Lemma seeks_ex v l : exists x y, seeks v l x y.
Proof.
  induction l as [|c l (x & y & -> & K & N & H)].
  - exists [], []. split; [reflexivity|]. split; [constructor|]. split; auto.
  - destruct c as [u|].
    + destruct (Z.eq_dec u v) as [->|D].
      * exists [], (Some v :: x ++ y). split; [reflexivity|]. split; [constructor|]. split; [auto|]. right. eauto.
      * exists (Some u :: x), y. split; [reflexivity|]. split; [constructor; [discriminate|auto]|]. split; [|auto]. intros [X|X]; [congruence|auto].
    + exists [], (None :: x ++ y). split; [reflexivity|]. split; [constructor|]. split; [auto|]. right. eauto.
Qed.

Definition as_int (i : Z) : Z := if i <? 2^31 then i else i - 2^32.
Lemma s32_as_int i : 0 <= i < 2^32 -> s32 i = as_int i.
Proof. intros H. unfold as_int. destruct (i <? 2^31) eqn:E; [apply s32_id; unfold in_s32; lia|]. unfold s32. rewrite <- (Z.mod_unique_pos (i + 2^31) (2^32) 1 (i - 2^31)); lia. Qed.

Lemma find_loop_exact v spare : forall x0 fuel x y, known x -> ~ In (Some v) x -> (y = [] \/ exists c z, y = c :: z /\ (c = Some v \/ c = None)) -> len (x ++ y) <= Z.of_nat fuel ->
  find_loop fuel ((x0 ++ x ++ y) ++ spare) (len x0 + len (x ++ y)) (len x0) v = match y with [] => Ok (-1) | Some _ :: _ => Ok (s32 (len x0 + len x)) | None :: _ => Fail UninitRead end.
Proof.
  intros x0 fuel x. revert x0 fuel. induction x as [|c x IH]; intros x0 fuel y K N H F.
  - cbn [app] in *. change (len (@nil (option Z))) with 0. rewrite Z.add_0_r. destruct y as [|c z].
    + change (len (@nil (option Z))) with 0. destruct fuel; cbn [find_loop]; replace (len x0 <? len x0 + 0) with false by lia; reflexivity.
    + rewrite len_cons in *. pose proof (len_nonneg z). pose proof (len_nonneg x0). destruct fuel as [|fuel]; [lia|]. cbn [find_loop]. replace (len x0 <? len x0 + (1 + len z)) with true by lia.
      assert (rd ((x0 ++ c :: z) ++ spare) (len x0) = Ok c) as ->.
      { apply rd_ok. split; [lia|]. rewrite <- app_assoc, nth_error_app2 by (unfold len; lia). replace (Z.to_nat (len x0) - length x0)%nat with O by (unfold len; lia). reflexivity. }
      cbn [bind]. destruct H as [H|(c' & z' & H & [Hc|Hc])]; [discriminate| |]; injection H as -> ->; subst; [rewrite Z.eqb_refl|]; reflexivity.
  - pose proof (Forall_inv K) as Kc. pose proof (Forall_inv_tail K) as Kx. destruct c as [u|]; [|congruence]. cbn [app] in *. rewrite !len_cons in *. pose proof (len_nonneg (x ++ y)). pose proof (len_nonneg x0).
    destruct fuel as [|fuel]; [lia|]. cbn [find_loop]. replace (len x0 <? len x0 + (1 + len (x ++ y))) with true by lia.
    assert (rd ((x0 ++ Some u :: x ++ y) ++ spare) (len x0) = Ok (Some u)) as ->.
    { apply rd_ok. split; [lia|]. rewrite <- app_assoc, nth_error_app2 by (unfold len; lia). replace (Z.to_nat (len x0) - length x0)%nat with O by (unfold len; lia). reflexivity. }
    cbn [bind]. destruct (u =? v) eqn:E; [exfalso; apply N; left; f_equal; lia|].
    specialize (IH (x0 ++ [Some u]) fuel y Kx (fun X => N (or_intror X)) H ltac:(lia)). rewrite <- (app_assoc x0), len_app in IH. change (len [Some u]) with 1 in IH. cbn [app] in IH.
    replace (len x0 + 1 + len (x ++ y)) with (len x0 + (1 + len (x ++ y))) in IH by lia. rewrite IH. replace (len x0 + 1 + len x) with (len x0 + (1 + len x)) by lia. reflexivity.
Qed.

Lemma find_exact a l v x y : shows a l -> seeks v l x y -> len l < 2^32 -> find (Some a) v = match y with [] => Ok (-1) | Some _ :: _ => Ok (as_int (len x)) | None :: _ => Fail UninitRead end.
Proof.
  intros (C & spare & B) (-> & K & N & H) L. cbn [find]. rewrite C, B. pose proof (len_nonneg (x ++ y)) as P.
  pose proof (find_loop_exact v spare [] (Z.to_nat (len (x ++ y))) x y K N H ltac:(lia)) as E. cbn [app] in E. change (len (@nil (option Z))) with 0 in E. rewrite !Z.add_0_l in E. rewrite E.
  destruct y as [|[u|] z]; auto. rewrite s32_as_int; auto. rewrite len_app, len_cons in L. pose proof (len_nonneg x). pose proof (len_nonneg z). lia.
Qed.

(* ---------------- C36 ---------------- *)

(* the index, as an int, of the first v, unless there is an unspecified element before it *)
Theorem C36_find_exact a l v : shows a l -> len l < 2^32 ->
  match find (Some a) v with
  | Ok i => exists x y, l = x ++ y /\ known x /\ ~ In (Some v) x /\ ((y = [] /\ i = -1) \/ exists z, y = Some v :: z /\ i = (if len x <? 2^31 then len x else len x - 2^32))
  | Fail f => f = UninitRead /\ exists x z, l = x ++ None :: z /\ known x /\ ~ In (Some v) x
  end.
Proof.
  intros Sh L. destruct (seeks_ex v l) as (x & y & S). rewrite (find_exact a l v x y Sh S L). destruct S as (E & K & N & H). destruct y as [|[u|] z].
  - exists x, []. auto 6.
  - exists x, (Some u :: z). destruct H as [H|(c & z' & H & [Hc|Hc])]; try congruence. injection H as <- <-. injection Hc as ->. split; [auto|]. split; [auto|]. split; [auto|]. right. exists z. auto.
  - split; auto. exists x, z. auto.
Qed.
Print Assumptions C36_find_exact.

Example C36_example_exact : shows (mkArr [Some 4; Some 5; None; Some 6] 4 1 0) [Some 4; Some 5; None; Some 6] /\ find (Some (mkArr [Some 4; Some 5; None; Some 6] 4 1 0)) 5 = Ok 1 /\
  find (Some (mkArr [Some 4; Some 5; None; Some 6] 4 1 0)) 6 = Fail UninitRead.
Proof. split; [split; [reflexivity|exists []; reflexivity]|split; reflexivity]. Qed.

(* ---------------- C37 ---------------- *)

Lemma big_index x : 0 <= x < 2^32 -> (as_int x >=? 0) = (x <? 2^31).
Proof. unfold as_int. intros H. destruct (x <? 2^31) eqn:E; lia. Qed.

(* The first v is removed if its index is below 2^31, and otherwise nothing. The array of the fast function is reordered behind it. *)
Theorem C37_remove_exact a l v : shows a l -> known l -> len l < 2^32 ->
  (exists a' l' b, remove (Some a) v = Ok (Some a', b) /\ shows a' l' /\
     ((b = true /\ exists x y, l = x ++ Some v :: y /\ ~ In (Some v) x /\ len x < 2^31 /\ l' = x ++ y) \/
      (b = false /\ l' = l /\ forall x y, l = x ++ Some v :: y -> 2^31 <= len x))) /\
  (exists a' l' b, remove_fast (Some a) v = Ok (Some a', b) /\ shows a' l' /\
     ((b = true /\ exists x y, l = x ++ Some v :: y /\ ~ In (Some v) x /\ len x < 2^31 /\ ((y = [] /\ l' = x) \/ exists y' z, y = y' ++ [z] /\ l' = x ++ z :: y')) \/
      (b = false /\ l' = l /\ forall x y, l = x ++ Some v :: y -> 2^31 <= len x))).
Proof.
  intros Sh K L. destruct (seeks_ex v l) as (x & y & S). pose proof (find_exact a l v x y Sh S L) as F. destruct S as (-> & Kx & N & H). unfold remove, remove_fast. rewrite F. clear F.
  assert (Late : forall p q, x ++ y = p ++ Some v :: q -> len x <= len p).
  { clear - N. revert N. induction x as [|c x IH]; intros N p q E; [apply len_nonneg|]. destruct p as [|c' p]; [injection E as -> _; exfalso; apply N; left; auto|]. injection E as _ E. rewrite !len_cons.
    specialize (IH (fun X => N (or_intror X)) p q E). lia. }
  destruct y as [|[u|] z]; cbn [bind].
  - cbn. assert (forall p q, x ++ [] = p ++ Some v :: q -> 2^31 <= len p) as A by (intros p q E; exfalso; apply N; rewrite app_nil_r in E; rewrite E; apply in_or_app; right; left; auto).
    split; exists a, (x ++ []), false; auto 8.
  - destruct H as [H|(c & z' & H & [Hc|Hc])]; try congruence. injection H as <- <-. injection Hc as ->.
    assert (Hx : 0 <= len x < 2^32) by (rewrite len_app, len_cons in L; pose proof (len_nonneg x); pose proof (len_nonneg z); lia). rewrite (big_index _ Hx). destruct (len x <? 2^31) eqn:E.
    + assert (as_int (len x) = len x) as -> by (unfold as_int; rewrite E; auto). destruct (g_remove_index_spec a x (Some v) z Sh) as (a1 & -> & S1 & _). destruct (g_remove_fast_spec a x (Some v) z Sh) as (a2 & l2 & -> & S2 & _ & _ & D). cbn [bind].
      split; [exists a1, (x ++ z), true|exists a2, l2, true]; (split; [auto|]; split; [auto|]; left; split; auto; exists x, z; split; [auto|]; split; [auto|]; split; [lia|auto]).
    + split; exists a, (x ++ Some v :: z), false; (split; [auto|]; split; [auto|]; right; split; auto; split; auto; intros p q Ep; apply Late in Ep; lia).
  - exfalso. apply known_app in K. destruct K as (_ & K). apply Forall_inv in K. congruence.
Qed.
Print Assumptions C37_remove_exact.

Lemma filter_len v l : len (filter (is_val v) l) + len (filter (fun c => negb (is_val v c)) l) = len l.
Proof. induction l as [|c l IH]; [reflexivity|]. cbn [filter]. destruct (is_val v c); cbn [negb]; rewrite !len_cons; lia. Qed.

Lemma before {A} (v : A) x y r t : ~ In v x -> x ++ v :: y = r ++ v :: t -> r = x \/ exists r', r = x ++ v :: r'.
Proof.
  revert r. induction x as [|c x IH]; intros r N E.
  - destruct r as [|c r]; [auto|]. injection E as <- _. right. exists r. auto.
  - destruct r as [|c' r]; injection E as -> E; [exfalso; apply N; left; auto|]. destruct (IH r) as [->|(r' & ->)]; auto. { intros X. apply N. right. auto. } right. exists r'. auto.
Qed.

Lemma remove_all_exact v : forall fuel a l n, shows a l -> known l -> 0 <= n -> n + len l < 2^32 -> len l <= Z.of_nat fuel ->
  exists a' x y, remove_loop remove fuel (Some a) v n = Ok (Some a', n + len (filter (is_val v) x)) /\ l = x ++ y /\ shows a' (filter (fun c => negb (is_val v c)) x ++ y) /\
    (y = [] \/ exists z, y = Some v :: z /\ 2^31 <= len (filter (fun c => negb (is_val v c)) x)) /\
    (forall p q, x = p ++ Some v :: q -> len (filter (fun c => negb (is_val v c)) p) < 2^31).
Proof.
  induction fuel as [|fuel IH]; intros a l n Sh K Hn Hb F; cbn [remove_loop];
  destruct (C37_remove_exact a l v Sh K ltac:(lia)) as ((a1 & l1 & b & -> & Sh1 & [(-> & x & y & -> & Nx & Lx & ->)|(-> & -> & Nl)]) & _); cbn [bind].
  1: rewrite len_app, len_cons in F; pose proof (len_nonneg x); pose proof (len_nonneg y); lia.
  1, 3: assert (forall c, c = Some v \/ c <> Some v) as D by (intros c; destruct (is_val v c) eqn:E; [left; apply is_val_iff; auto|right; intros X; apply is_val_iff in X; congruence]);
    destruct (in_dec (fun c d : option Z => ltac:(decide equality; apply Z.eq_dec) : {c = d} + {c <> d}) (Some v) l) as [I|I];
    [|exists a1, l, []; rewrite (filter_none (is_val v)) by (apply is_val_not; auto); rewrite keep_not by auto; rewrite !app_nil_r; change (len (@nil (option Z))) with 0; rewrite Z.add_0_r; split; [auto|]; split; [auto|]; split; [auto|]; split; [auto|]; intros p q ->; exfalso; apply I, in_or_app; right; left; auto].
  1, 2: destruct (seeks_ex v l) as (x & y & -> & Kx & N & H); exists a1, x, y; rewrite (filter_none (is_val v)) by (apply is_val_not; auto); rewrite keep_not by auto; change (len (@nil (option Z))) with 0; rewrite Z.add_0_r;
    split; [auto|]; split; [auto|]; split; [auto|]; (split; [right|intros p q ->; exfalso; apply N, in_or_app; right; left; auto]); destruct H as [->|(c & z & -> & [-> | -> ])]; [rewrite app_nil_r in I; contradiction|exists z; split; auto; apply (Nl x z); auto|
    exfalso; apply known_app in K; destruct K as (_ & K); apply Forall_inv in K; congruence].
  rewrite len_app, len_cons in *. pose proof (len_nonneg x). pose proof (len_nonneg y). apply known_app in K. destruct K as (Kx & Ky). pose proof (Forall_inv_tail Ky) as Ky'.
  rewrite u32_id by (unfold in_u32; lia). destruct (IH a1 (x ++ y) (n + 1)) as (a2 & p & q & E & Epq & Sh2 & H2 & H3); rewrite ?len_app; auto; try lia. { apply known_app. auto. }
  assert (exists p', p = x ++ p') as (p' & ->).
  { destruct H2 as [->|(z & -> & Hz)]; [exists y; rewrite app_nil_r in Epq; auto|]. assert (len x <= len p).
    { pose proof (filter_len v p) as Fl. pose proof (len_nonneg (filter (is_val v) p)). lia. }
    exists (skipn (length x) p). assert (firstn (length x) (x ++ y) = firstn (length x) (p ++ Some v :: z)) as Ef by congruence. rewrite firstn_app_len in Ef by auto.
    rewrite firstn_app in Ef. replace (length x - length p)%nat with 0%nat in Ef by (unfold len in *; lia). cbn [firstn] in Ef. rewrite app_nil_r in Ef. rewrite Ef at 1. symmetry. apply firstn_skipn. }
  rewrite <- app_assoc in Epq. apply app_inv_head in Epq. subst y. exists a2, (x ++ Some v :: p'), q. rewrite E. rewrite !filter_app in *. cbn [filter] in *. rewrite is_val_self. cbn [negb]. split; [|split; [|split; [auto|split; [auto|]]]].
  - do 2 f_equal. rewrite !len_app, len_cons. lia.
  - rewrite <- app_assoc. reflexivity.
  - intros r t Ert. destruct (before _ _ _ _ _ Nx Ert) as [->|(r' & ->)].
    + rewrite keep_not by auto. auto.
    + rewrite <- app_assoc in Ert. apply app_inv_head in Ert. injection Ert as ->. rewrite filter_app. cbn [filter]. rewrite is_val_self. cbn [negb]. rewrite <- filter_app. apply (H3 _ t). rewrite <- app_assoc. reflexivity.
Qed.

(* All v are removed, until the first one left has an index of 2^31 or more *)
Theorem C37_remove_all_exact a l v : shows a l -> known l -> len l < 2^32 ->
  exists a' x y, remove_all (Some a) v = Ok (Some a', len (filter (is_val v) x)) /\ l = x ++ y /\ shows a' (filter (fun c => negb (is_val v c)) x ++ y) /\
    (y = [] \/ exists z, y = Some v :: z /\ 2^31 <= len (filter (fun c => negb (is_val v c)) x)) /\
    (forall p q, x = p ++ Some v :: q -> len (filter (fun c => negb (is_val v c)) p) < 2^31).
Proof.
  intros Sh K L. pose proof Sh as (C & _). unfold remove_all, size_of. rewrite C. pose proof (len_nonneg l).
  destruct (remove_all_exact v (Z.to_nat (len l)) a l 0 Sh K) as (a' & x & y & E & H'); try lia. exists a', x, y. rewrite E. auto.
Qed.
Print Assumptions C37_remove_all_exact.

Lemma remove_all_fast_exact v : forall fuel a l n, shows a l -> known l -> 0 <= n -> n + len l < 2^32 -> len l <= Z.of_nat fuel ->
  exists a' l' k, remove_loop remove_fast fuel (Some a) v n = Ok (Some a', n + Z.of_nat k) /\ shows a' l' /\ Permutation (l' ++ repeat (Some v) k) l /\ (forall x y, l' = x ++ Some v :: y -> 2^31 <= len x).
Proof.
  induction fuel as [|fuel IH]; intros a l n Sh K Hn Hb F; cbn [remove_loop];
  destruct (C37_remove_exact a l v Sh K ltac:(lia)) as (_ & (a1 & l1 & b & -> & Sh1 & [(-> & x & y & -> & Nx & Lx & D)|(-> & -> & Nl)])); cbn [bind].
  1: rewrite len_app, len_cons in F; pose proof (len_nonneg x); pose proof (len_nonneg y); lia.
  1, 3: exists a1, l, 0%nat; cbn [repeat Z.of_nat]; rewrite app_nil_r, Z.add_0_r; auto.
  assert (P : Permutation l1 (x ++ y)).
  { destruct D as [(-> & ->)|(y' & z & -> & ->)]; [rewrite app_nil_r; auto|]. apply Permutation_app_head, Permutation_cons_append. }
  pose proof (perm_len _ _ P) as PL. rewrite len_app in PL. rewrite len_app, len_cons in *. pose proof (len_nonneg x). pose proof (len_nonneg y). apply known_app in K. destruct K as (Kx & Ky). pose proof (Forall_inv_tail Ky) as Ky'.
  rewrite u32_id by (unfold in_u32; lia). destruct (IH a1 l1 (n + 1)) as (a2 & l2 & k & E & Sh2 & P2 & H2); auto; try lia.
  { apply perm_known with (x ++ y); [symmetry; auto|]. apply known_app. auto. }
  exists a2, l2, (S k). rewrite E. split; [do 2 f_equal; lia|]. split; [auto|]. split; [|auto]. cbn [repeat]. rewrite <- Permutation_middle. etransitivity; [apply perm_skip; exact P2|]. rewrite P. apply Permutation_middle.
Qed.

Theorem C37_remove_all_fast_exact a l v : shows a l -> known l -> len l < 2^32 ->
  exists a' l' k, remove_all_fast (Some a) v = Ok (Some a', Z.of_nat k) /\ shows a' l' /\ Permutation (l' ++ repeat (Some v) k) l /\ (forall x y, l' = x ++ Some v :: y -> 2^31 <= len x).
Proof.
  intros Sh K L. pose proof Sh as (C & _). unfold remove_all_fast, size_of. rewrite C. pose proof (len_nonneg l).
  destruct (remove_all_fast_exact v (Z.to_nat (len l)) a l 0 Sh K) as (a' & l' & k & E & H'); try lia. exists a', l', k. rewrite E. auto.
Qed.
Print Assumptions C37_remove_all_fast_exact.

Example C37_example_exact : known [Some 1; Some 2; Some 1; Some 3] /\ shows (arr [1; 2; 1; 3]) [Some 1; Some 2; Some 1; Some 3] /\
  (exists a', remove_all (Some (arr [1; 2; 1; 3])) 1 = Ok (Some a', 2) /\ shows a' [Some 2; Some 3]) /\ (exists a', remove_all_fast (Some (arr [1; 2; 1; 3])) 1 = Ok (Some a', 2) /\ shows a' [Some 3; Some 2]).
Proof.
  split; [repeat constructor; discriminate|]. split; [apply (shows_arr [1; 2; 1; 3])|].
  split; eexists; (split; [vm_compute; reflexivity|split; [reflexivity|eexists; reflexivity]]).
Qed.

(* ---------------- C38 ---------------- *)

(* if pos + count overflows, nothing is removed and GLib complains *)
Theorem C38_overflow a l pos n : shows a l -> 0 <= pos < len l -> len l < 2^32 -> 0 <= n < 2^32 -> 2^32 <= pos + n ->
  exists a', remove_range (Some a) pos n = Ok (Some a') /\ shows a' l /\ crit a' = crit a + 1.
Proof.
  intros (C & spare & B) Hp L Hn Ho. unfold remove_range, on. rewrite C. replace (pos <? len l) with true by lia. replace (n =? 0) with false by lia. cbn [negb andb].
  assert (u32 (pos + n) = pos + n - 2^32) as -> by (unfold u32; symmetry; apply (Z.mod_unique_pos _ _ 1); lia). replace (pos + n - 2^32 >? len l) with false by lia.
  assert (u32 (pos + n - 2^32 - pos) = n) as -> by (unfold u32; symmetry; apply (Z.mod_unique_pos _ _ (-1)); lia).
  unfold g_remove_range. rewrite C. replace (pos <=? 2^32 - 1 - n) with false by lia. cbn [negb]. rewrite orb_true_r. cbn [orb bind]. exists (warn a). split; [reflexivity|]. split; [split; [exact C|exists spare; exact B]|reflexivity].
Qed.
Print Assumptions C38_overflow.

Example C38_example_overflow : shows (arr [1; 2; 3]) (map Some [1; 2; 3]) /\ 2^32 <= 2 + (2^32 - 2) /\ remove_range (Some (arr [1; 2; 3])) 2 (2^32 - 2) = Ok (Some (warn (arr [1; 2; 3]))).
Proof. split; [apply (shows_arr [1; 2; 3])|]. split; [lia|]. vm_compute. reflexivity. Qed.
