(* Lemmas about arrays of pointers *)
From Verif Require Import Base PtrvModel PtrvSpec.
From Coq Require Import ZifyBool Arith.
Ltac Zify.zify_post_hook ::= Z.div_mod_to_equations.

(* ---------------- reading ---------------- *)
Lemma at_in l junk k x : nth_error l k = Some x -> at_ (map CPtr l ++ CNull :: junk) (Z.of_nat k) = Ok (Some x).
Proof.
  intros H. unfold at_. rewrite (proj2 (rd_ok _ _ (CPtr x))); [reflexivity|].
  split; [lia|]. rewrite Nat2Z.id. rewrite nth_error_app1 by (rewrite map_length; apply nth_error_Some; congruence). rewrite nth_error_map, H. reflexivity.
Qed.
Lemma at_end l junk : at_ (map CPtr l ++ CNull :: junk) (len l) = Ok None.
Proof.
  unfold at_. rewrite (proj2 (rd_ok _ _ CNull)); [reflexivity|]. unfold len. split; [lia|].
  rewrite Nat2Z.id. rewrite nth_error_app2 by (rewrite map_length; lia). rewrite map_length, Nat.sub_diag. reflexivity.
Qed.

Lemma length_loop_spec l junk : forall n, 0 <= n -> n + len l < 2^64 -> length_loop (map CPtr l ++ CNull :: junk) n = Ok (n + len l).
Proof.
  induction l; intros n Hn H; cbn [map app length_loop as_ptr bind].
  - rewrite len_nil. f_equal. lia.
  - rewrite len_cons in *. pose proof (len_nonneg l). rewrite u64_id by (unfold in_u64; lia). rewrite IHl by lia. f_equal. lia.
Qed.
Lemma length_spec v l : holds v l -> len l < 2^64 -> ptrv_length v = Ok (len l).
Proof.
  destruct v as [b|]; cbn.
  - intros (junk & ->) H. rewrite length_loop_spec; auto; lia.
  - intros -> _. reflexivity.
Qed.

Lemma walk_spec {W} (P : W -> list nat -> Prop) (f : W -> nat -> res W) junk : 
  (forall w x t, P w (x :: t) -> exists w', f w x = Ok w' /\ P w' t) ->
  forall l w, P w l -> exists w', walk f w (map CPtr l ++ CNull :: junk) = Ok w' /\ P w' [].
Proof.
  intros Hf l. induction l as [|x l IH]; intros w Hw; cbn [map app walk as_ptr bind].
  - eauto.
  - destruct (Hf w x l Hw) as (w' & E & Hw'). rewrite E. cbn [bind]. apply IH. auto.
Qed.

(* ---------------- changing memory ---------------- *)
Lemma firstn_map_app l junk : firstn (length l + 1) (map CPtr l ++ CNull :: junk) = map CPtr l ++ [CNull].
Proof. rewrite <- (map_length CPtr l). rewrite firstn_app_2. reflexivity. Qed.

Lemma slice_all {A} (l : list A) n : len l <= n -> slice l 0 n = l.
Proof. intros. unfold slice. cbn [Z.to_nat skipn]. apply firstn_all2. unfold len in *. lia. Qed.
Lemma slice_app_l {A} (a b : list A) : slice (a ++ b) 0 (len a) = a.
Proof. unfold slice. cbn [Z.to_nat skipn]. rewrite firstn_app. unfold len. replace (Z.to_nat _ - length a)%nat with O by lia. rewrite firstn_O, app_nil_r. apply firstn_all2. lia. Qed.
Lemma slice_app_r {A} (a b : list A) n : slice (a ++ b) (len a) n = slice b 0 (n - len a).
Proof. unfold slice. cbn [Z.to_nat skipn]. unfold len. rewrite Nat2Z.id, skipn_app, Nat.sub_diag, skipn_all. cbn [app skipn]. f_equal. lia. Qed.

(* closing the gap at pos *)
Lemma move_remove a x c junk n : n = len (a ++ x :: c) ->
  exists rest, move (map CPtr (a ++ x :: c) ++ CNull :: junk) (len a) (len a + 1) (n - len a) = Ok (map CPtr (a ++ c) ++ CNull :: rest) .
Proof.
  intros ->. unfold move. rewrite !len_app, len_cons. rewrite !map_app. cbn [map].
  assert (forall (l : list nat), len (map CPtr l) = len l) as LM by (intros; unfold len; rewrite map_length; auto).
  pose proof (len_nonneg a). pose proof (len_nonneg c). pose proof (len_nonneg junk).
  rewrite !len_app, !len_cons, !LM.
  replace ((0 <=? len a + 1) && _ && _) with true by lia. replace ((0 <=? len a) && _) with true by lia.
  set (n := len a + (1 + len c) - len a).
  assert (n = 1 + len c) as En by (unfold n; lia). clearbody n. subst n.
  eexists. f_equal.
  replace ((map CPtr a ++ CPtr x :: map CPtr c) ++ CNull :: junk) with (map CPtr a ++ (CPtr x :: map CPtr c ++ CNull :: junk)) by (rewrite <- app_assoc; reflexivity).
  rewrite <- (LM a) at 1. rewrite slice_app_l.
  assert (slice (map CPtr a ++ CPtr x :: map CPtr c ++ CNull :: junk) (len a + 1) (len a + 1 + (1 + len c)) = map CPtr c ++ [CNull]) as ->.
  { replace (map CPtr a ++ CPtr x :: map CPtr c ++ CNull :: junk) with ((map CPtr a ++ [CPtr x]) ++ (map CPtr c ++ [CNull]) ++ junk) by (rewrite <- !app_assoc; reflexivity).
    replace (len a + 1) with (len (map CPtr a ++ [CPtr x])) by (rewrite len_app, LM; reflexivity). rewrite slice_app_r.
    replace (len (map CPtr a ++ [CPtr x]) + (1 + len c) - len (map CPtr a ++ [CPtr x])) with (len (map CPtr c ++ [CNull])) by (rewrite (len_app (map CPtr c)), LM; change (len [CNull]) with 1; lia).
    apply slice_app_l. }
  rewrite <- !app_assoc. reflexivity.
Qed.

Lemma renew_cut l rest n : n = len l + 1 -> renew (Some (map CPtr l ++ CNull :: rest)) n = map CPtr l ++ [CNull].
Proof.
  intros ->. unfold renew. replace (Z.to_nat (len l + 1)) with (length l + 1)%nat by (unfold len; lia).
  rewrite firstn_map_app. replace (_ - _)%nat with O; [rewrite app_nil_r; auto|]. rewrite app_length, map_length. cbn [length]. lia.
Qed.

Lemma remove_impl_spec {W} wrap drop (w w' : W) a x c junk :
  (forall z, 0 <= z <= len (a ++ x :: c) -> wrap z = z) -> drop w x = Ok w' ->
  remove_impl wrap drop w (map CPtr (a ++ x :: c) ++ CNull :: junk) (len a) (len (a ++ x :: c)) = Ok (w', map CPtr (a ++ c) ++ [CNull]).
Proof.
  intros Hw Hd. unfold remove_impl.
  unfold len at 1. rewrite (at_in (a ++ x :: c) junk (length a) x) by (rewrite nth_error_app2, Nat.sub_diag by lia; reflexivity). cbn [bind]. rewrite Hd. cbn [bind].
  pose proof (len_nonneg a). pose proof (len_nonneg c).
  rewrite (Hw (len a + 1)), (Hw (len (a ++ x :: c) - len a)) by (rewrite ?len_app, ?len_cons; lia).
  destruct (move_remove a x c junk _ eq_refl) as (rest & E). rewrite E. cbn [bind]. rewrite renew_cut; auto. rewrite !len_app, len_cons. lia.
Qed.

(* room for m more *)
Lemma renew_grow v l m : holds v l -> 0 < m -> exists b, renew v (len l + m) = map CPtr l ++ b /\ len b = m.
Proof.
  intros H Hm. assert (len (map CPtr l) = len l) as LM by (unfold len; rewrite map_length; auto). pose proof (len_nonneg l).
  assert (len (renew v (len l + m)) = len l + m) as RL.
  { unfold renew, len. rewrite app_length, firstn_length, repeat_length. fold (len l). lia. }
  assert (exists b, renew v (len l + m) = map CPtr l ++ b) as (b & E).
  { destruct v as [b|]; cbn in H.
    - destruct H as (junk & ->). unfold renew. rewrite firstn_app. rewrite firstn_all2 by (rewrite map_length; unfold len; lia). rewrite <- app_assoc. eauto.
    - subst l. cbn [map app]. eauto. }
  exists b. split; auto. rewrite E, len_app, LM in RL. lia.
Qed.

Lemma wr_mid {A} (a : list A) x y c : wr (a ++ x :: c) (len a) y = Ok (a ++ y :: c).
Proof. rewrite wr_in by (rewrite len_app, len_cons; pose proof (len_nonneg a); pose proof (len_nonneg c); lia). f_equal. unfold len. rewrite Nat2Z.id. rewrite <- (Nat.add_0_r (length a)). rewrite upd_app_r by lia. rewrite Nat.add_0_r, Nat.sub_diag. reflexivity. Qed.

Lemma len_cons_inv {A} (b : list A) m : len b = m -> 0 < m -> exists x c, b = x :: c /\ len c = m - 1.
Proof. destruct b; [cbn; lia|]. rewrite len_cons. intros. exists a, b. split; auto. lia. Qed.

(* ---------------- searching ---------------- *)
Lemma find_last_spec (test : nat -> res bool) (p : nat -> bool) pre seg post junk : (forall x, In x seg -> test x = Ok (p x)) ->
  (find_last_impl test (map CPtr (pre ++ seg ++ post) ++ CNull :: junk) (len pre) (length seg) = Ok (-1) /\ forall x, In x seg -> p x = false) \/
  (exists s1 x s2, seg = s1 ++ x :: s2 /\ p x = true /\ (forall y, In y s2 -> p y = false) /\
     find_last_impl test (map CPtr (pre ++ seg ++ post) ++ CNull :: junk) (len pre) (length seg) = Ok (len s1)).
Proof.
  revert post. induction seg as [|x seg IH] using rev_ind; intros post T.
  - left. split; [reflexivity|contradiction].
  - rewrite app_length. cbn [length]. rewrite Nat.add_1_r. cbn [find_last_impl].
    replace (len pre + Z.of_nat (length seg)) with (Z.of_nat (length pre + length seg)) by (unfold len; lia).
    rewrite (at_in _ _ _ x). 2:{ rewrite nth_error_app2 by lia. replace (_ - _)%nat with (length seg) by lia. rewrite <- app_assoc, nth_error_app2, Nat.sub_diag by lia. reflexivity. }
    cbn [bind]. rewrite T by (apply in_or_app; right; left; auto). cbn [bind]. destruct (p x) eqn:Px.
    + right. exists seg, x, []. split; auto. split; auto. split; [contradiction|]. reflexivity.
    + replace ((seg ++ [x]) ++ post) with (seg ++ (x :: post)) by (rewrite <- app_assoc; reflexivity).
      destruct (IH (x :: post)) as [(E & N)|(s1 & y & s2 & Es & Py & N & E)].
      * intros y Hy. apply T. apply in_or_app. auto.
      * left. split; auto. intros y Hy. apply in_app_or in Hy. destruct Hy as [Hy|[<-|[]]]; auto.
      * right. exists s1, y, (s2 ++ [x]). split; [rewrite Es, <- app_assoc; reflexivity|]. split; auto. split; auto.
        intros z Hz. apply in_app_or in Hz. destruct Hz as [Hz|[<-|[]]]; auto.
Qed.

Lemma filter_none {A} (p : A -> bool) l : (forall x, In x l -> p x = false) -> filter (fun x => negb (p x)) l = l.
Proof. induction l; intros H; cbn; auto. rewrite H by (left; auto). cbn. f_equal. apply IHl. intros. apply H. right. auto. Qed.

Lemma remove_rest_spec {W} (P : W -> list nat -> Prop) wrap (test : W -> nat -> res bool) (drop : W -> nat -> res W) (p : nat -> bool) N :
  (forall z, 0 <= z <= N -> wrap z = z) ->
  (forall w l x, P w l -> In x l -> test w x = Ok (p x)) ->
  (forall w a x c, P w (a ++ x :: c) -> p x = true -> exists w', drop w x = Ok w' /\ P w' (a ++ c)) ->
  forall fuel w pre seg post junk, (length seg < fuel)%nat -> P w (pre ++ seg ++ post) -> (forall x, In x post -> p x = false) -> len (pre ++ seg ++ post) <= N ->
  exists w' junk', remove_rest fuel wrap test drop w (map CPtr (pre ++ seg ++ post) ++ CNull :: junk) (len pre) (len (pre ++ seg ++ post)) (len seg)
    = Ok (w', map CPtr (pre ++ filter (fun x => negb (p x)) (seg ++ post)) ++ CNull :: junk') /\ P w' (pre ++ filter (fun x => negb (p x)) (seg ++ post)).
Proof.
  intros Hw HT HD fuel. induction fuel; intros w pre seg post junk Hf HP HN HL; [lia|]. cbn [remove_rest].
  replace (Z.to_nat (len seg)) with (length seg) by (unfold len; lia).
  destruct (find_last_spec (test w) p pre seg post junk) as [(E & Nn)|(s1 & x & s2 & Es & Px & Nn & E)].
  - intros x Hx. apply (HT w _ x HP). apply in_or_app. right. apply in_or_app. auto.
  - rewrite E. cbn [bind]. change (-1 >=? 0) with false. cbv iota. exists w, junk.
    rewrite filter_none; [auto|]. intros x Hx. apply in_app_or in Hx. destruct Hx; auto.
  - rewrite E. cbn [bind]. pose proof (len_nonneg s1). replace (len s1 >=? 0) with true by lia. cbv iota. subst seg.
    assert (pre ++ (s1 ++ x :: s2) ++ post = (pre ++ s1) ++ x :: (s2 ++ post)) as EQ by (rewrite <- !app_assoc; reflexivity).
    rewrite EQ in *. destruct (HD w _ _ _ HP Px) as (w1 & Ed & HP1).
    rewrite <- len_app. rewrite (remove_impl_spec wrap drop w w1 (pre ++ s1) x (s2 ++ post) junk); auto; [|intros; apply Hw; lia].
    cbn [bind]. assert (len ((pre ++ s1) ++ x :: s2 ++ post) - 1 = len (pre ++ s1 ++ (s2 ++ post))) as EL by (rewrite !len_app, len_cons, len_app; lia).
    rewrite EL, Hw by (split; [apply len_nonneg|lia]). rewrite <- app_assoc. rewrite <- app_assoc in HP1.
    destruct (IHfuel w1 pre s1 (s2 ++ post) []) as (w2 & junk' & E2 & HP2); auto.
    + rewrite app_length in Hf. cbn in Hf. lia.
    + intros y Hy. apply in_app_or in Hy. destruct Hy; auto.
    + lia.
    + exists w2, junk'. assert (filter (fun x => negb (p x)) ((s1 ++ x :: s2) ++ post) = filter (fun x => negb (p x)) (s1 ++ s2 ++ post)) as ->.
      { rewrite <- app_assoc, !filter_app. cbn [app filter]. rewrite Px. cbn [negb]. rewrite ?filter_app. reflexivity. }
      auto.
Qed.

(* ---------------- freeing ---------------- *)
Lemma frees_nil {A} (h : objects A) : frees h [] h.
Proof. split; auto. intros i. split; [contradiction|auto]. Qed.

Lemma free_obj_spec {A} (h h1 : objects A) fs x : frees h fs h1 -> ~ In x fs -> is_live h x -> exists h2, free_obj h1 x = Ok h2 /\ frees h (x :: fs) h2.
Proof.
  intros (L & F) N (a & Ha). unfold free_obj. rewrite (proj2 (F x) N), Ha. eexists. split; [reflexivity|]. split; [rewrite upd_length; auto|].
  intros i. destruct (Nat.eq_dec x i) as [<-|Nx].
  - split; [intros _|cbn; tauto]. apply nth_error_upd_eq. rewrite L. apply nth_error_Some. congruence.
  - rewrite nth_error_upd_ne by auto. split; [intros [?|?]; [congruence|apply F; auto]|]. intros Hn. apply F. cbn in Hn. tauto.
Qed.
Lemma frees_ext {A} (h h' : objects A) fs fs' : (forall i, In i fs <-> In i fs') -> frees h fs h' -> frees h fs' h'.
Proof. intros E (L & F). split; auto. intros i. rewrite <- E. auto. Qed.

Lemma ptrv_free_spec {A} (h : objects A) v l : holds v l -> NoDup l -> (forall x, In x l -> is_live h x) ->
  exists h', ptrv_free h v = Ok h' /\ frees h l h'.
Proof.
  intros H ND LV. destruct v as [b|]; cbn in H.
  - destruct H as (junk & ->). cbn [ptrv_free].
    destruct (walk_spec (fun h1 r => NoDup l /\ exists done, l = done ++ r /\ frees h done h1) free_obj junk) with (l := l) (w := h) as (h' & E & _ & done & Ed & F).
    + intros w x t (_ & done & Ed & F). subst l. destruct (free_obj_spec h w done x F) as (w' & E & F').
      * intros Hx. apply NoDup_remove_2 in ND. apply ND. apply in_or_app. auto.
      * apply LV. apply in_or_app. right. left. auto.
      * exists w'. split; auto. split; auto. exists (done ++ [x]). rewrite <- app_assoc. split; auto. eapply frees_ext; [|exact F'].
        intros i. rewrite in_app_iff. cbn. tauto.
    + split; auto. exists []. split; auto. apply frees_nil.
    + exists h'. split; auto. rewrite app_nil_r in Ed. subst. auto.
  - subst. exists h. split; auto. apply frees_nil.
Qed.

(* ---------------- ids ---------------- *)
Lemma disconnect_spec : forall n w pre mid post,
  n = length mid -> NoDup (filter (fun x => negb (x =? 0)) mid) -> (forall x, In x mid -> x <> 0 -> In x (alive w)) ->
  disconnect_loop n w (pre ++ mid ++ post) (len pre) =
    Ok (mkIds (filter (fun x => negb (existsb (Z.eqb x) (filter (fun x => negb (x =? 0)) mid))) (alive w)) (bad w), pre ++ map (fun _ => 0) mid ++ post).
Proof.
  induction n; intros w pre mid post Hn ND Al.
  - destruct mid; [|discriminate]. cbn. f_equal. f_equal. destruct w as [a b]. cbn. f_equal. clear. induction a as [|x a IH]; auto. cbn. f_equal. auto.
  - destruct mid as [|x mid]; [discriminate|]. cbn [disconnect_loop app]. 
    rewrite (proj2 (rd_ok _ _ x)). 2:{ unfold len. split; [lia|]. rewrite Nat2Z.id, nth_error_app2, Nat.sub_diag by lia. reflexivity. }
    cbn [bind filter] in *. replace (len pre + 1) with (len (pre ++ [0])) by (rewrite len_app; reflexivity). destruct (Z.eqb_spec x 0) as [->|Nx]; cbn [negb] in *.
    + replace (len (pre ++ [0])) with (len (pre ++ [0])) by auto. replace (pre ++ 0 :: mid ++ post) with ((pre ++ [0]) ++ mid ++ post) by (rewrite <- app_assoc; reflexivity).
      rewrite IHn; auto; [|intros; apply Al; auto; right; auto]. rewrite <- !app_assoc. reflexivity.
    + rewrite wr_mid. cbn [bind]. replace (pre ++ 0 :: mid ++ post) with ((pre ++ [0]) ++ mid ++ post) by (rewrite <- app_assoc; reflexivity).
      inversion ND as [|? ? Nin ND']. subst. rewrite IHn; auto.
      * unfold remove_id. assert (existsb (Z.eqb x) (alive w) = true) as Ex. { apply existsb_exists. exists x. split; [apply Al; auto; left; auto|apply Z.eqb_refl]. }
        rewrite Ex. cbn [alive bad]. rewrite <- !app_assoc. cbn [app map]. do 2 f_equal. f_equal.
        clear. induction (alive w) as [|y l IH]; auto. cbn [filter]. rewrite (Z.eqb_sym y x). destruct (Z.eqb_spec x y) as [->|N]; cbn [negb filter existsb].
        -- rewrite Z.eqb_refl. cbn. auto.
        -- rewrite (proj2 (Z.eqb_neq y x)) by congruence. cbn [orb]. destruct (negb _); [f_equal|]; auto.
      * intros y Hy Ny. unfold remove_id. destruct (existsb (Z.eqb x) (alive w)); cbn [alive]; [|apply Al; auto; right; auto].
        apply filter_In. split; [apply Al; auto; right; auto|]. destruct (Z.eqb_spec y x) as [->|]; auto. exfalso. apply Nin. apply filter_In. split; auto. apply negb_true_iff. apply Z.eqb_neq. auto.
Qed.
