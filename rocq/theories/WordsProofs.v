(* Proofs about programs with string arrays. *)
From Verif Require Import Base PtrvModel PtrvSpec PtrvProofs StrvModel StrvSpec StrvProofs StrvAlias StrvProps WordsModel WordsSpec.

Lemma nodup_l {A} (a b : list A) : NoDup (a ++ b) -> NoDup a.
Proof. exact (NoDup_app_l a b). Qed.
Lemma nodup_r {A} (a b : list A) : NoDup (a ++ b) -> NoDup b.
Proof. induction a as [|x a IH]; intros N; [exact N|]. inversion N; subst. apply IH. assumption. Qed.
(* ---- The strings in memory and who has them ---- *)
Definition hinv (h : strs) (all : list (nat * str)) : Prop :=
  NoDup (map fst all) /\ (forall i t, In (i, t) all <-> nth_error h i = Some (Some t)) /\ Forall (fun p => good_str (snd p)) all.
Lemma hinv_perm h a b : Permutation a b -> hinv h a -> hinv h b.
Proof.
  intros P (N & E & G). split; [exact (Permutation_NoDup (Permutation_map fst P) N)|]. split.
  - intros i t. rewrite <- E. split; apply Permutation_in; [apply Permutation_sym; exact P|exact P].
  - apply Forall_forall. intros p Hp. apply (proj1 (Forall_forall _ _) G). exact (Permutation_in p (Permutation_sym P) Hp).
Qed.
Lemma hinv_array h v ps rest : hinv h (ps ++ rest) -> holds v (map fst ps) -> len ps < 2^31 -> array h v ps.
Proof.
  intros (N & E & G) H L. split; [exact H|]. rewrite map_app in N. split; [exact (nodup_l _ _ N)|].
  split; [|exact L]. intros i t X. split; [apply E; apply in_or_app; left; exact X|].
  exact (proj1 (Forall_forall _ _) G (i, t) (in_or_app _ _ _ (or_introl X))).
Qed.
Lemma hinv_arg h all i t : hinv h all -> In (i, t) all -> arg h i t.
Proof. intros (_ & E & G) X. split; [apply E; exact X|]. exact (proj1 (Forall_forall _ _) G (i, t) X). Qed.
Lemma NoDup_app_dis {A} (a b : list A) x : NoDup (a ++ b) -> In x a -> In x b -> False.
Proof.
  induction a as [|y a IH]; intros N Ha Hb; [destruct Ha|]. cbn [app] in N. inversion N as [|? ? N1 N2]; subst. destruct Ha as [->|Ha].
  - apply N1. apply in_or_app. right. exact Hb.
  - exact (IH N2 Ha Hb).
Qed.
Lemma hinv_frees h h' d rest : hinv h (d ++ rest) -> frees h (map fst d) h' -> hinv h' rest.
Proof.
  intros (N & E & G) (L & F). rewrite map_app in N. split; [exact (nodup_r _ _ N)|]. split.
  - intros i t. destruct (F i) as (F1 & F2). split.
    + intros X. rewrite F2; [apply E; apply in_or_app; right; exact X|]. intros D. exact (NoDup_app_dis _ _ i N D (in_map fst _ _ X)).
    + intros X. assert (D : ~ In i (map fst d)) by (intros D; rewrite (F1 D) in X; discriminate). rewrite (F2 D) in X. apply E in X.
      apply in_app_or in X. destruct X as [X|X]; [destruct (D (in_map fst _ _ X))|exact X].
  - apply Forall_app in G. exact (proj2 G).
Qed.
Lemma hinv_new h all ts : hinv h all -> Forall good_str ts -> hinv (h ++ map Some ts) (number (length h) ts ++ all).
Proof.
  intros (N & E & G) GT.
  assert (LT : forall i t, In (i, t) all -> (i < length h)%nat) by (intros i t X; apply E in X; apply nth_error_Some; rewrite X; discriminate).
  split; [|split].
  - rewrite map_app.
    assert (D : forall x, In x (map fst (number (length h) ts)) -> ~ In x (map fst all)).
    { intros x X Y. apply number_fst_in in X. apply in_map_iff in Y. destruct Y as ((i, t) & <- & Y). specialize (LT i t Y). cbn [fst] in X. lia. }
    revert D. generalize (number_nodup (length h) ts). generalize (map fst (number (length h) ts)) as a. induction a as [|y a IH]; intros ND D; [exact N|].
    inversion ND as [|? ? N1 N2]; subst. cbn [app]. constructor; [|apply IH; [exact N2|intros x Hx; apply D; right; exact Hx]].
    intros X. apply in_app_or in X. destruct X as [X|X]; [exact (N1 X)|exact (D y (or_introl eq_refl) X)].
  - intros i t. split.
    + intros X. apply in_app_or in X. destruct X as [X|X].
      * pose proof (number_nth _ _ _ _ X) as Y. pose proof (in_map fst _ _ X) as Z. apply number_fst_in in Z. cbn [fst] in Z.
        rewrite nth_error_app2 by lia. rewrite nth_error_map, Y. reflexivity.
      * rewrite nth_error_app1 by exact (LT i t X). apply E. exact X.
    + intros X. apply in_or_app. destruct (Nat.lt_ge_cases i (length h)) as [L|L].
      * right. apply E. rewrite nth_error_app1 in X by exact L. exact X.
      * left. rewrite nth_error_app2 in X by exact L. rewrite nth_error_map in X. destruct (nth_error ts (i - length h)) as [u|] eqn:Y; [|discriminate].
        cbn [option_map] in X. injection X as ->. clear - Y L.
        revert i L Y. generalize (length h) as n. induction ts as [|u ts IH]; intros n i L Y; [destruct (i - n)%nat; discriminate|].
        cbn [number]. destruct (i - n)%nat as [|k] eqn:K.
        -- left. cbn [nth_error] in Y. injection Y as ->. f_equal. lia.
        -- right. apply IH; [lia|]. replace (i - S n)%nat with k by lia. exact Y.
  - apply Forall_app. split; [|exact G]. apply Forall_forall. intros (i, t) X. pose proof (in_map snd _ _ X) as Y. rewrite number_snd in Y. exact (proj1 (Forall_forall _ _) GT t Y).
Qed.
Lemma forall2_fst (ps ps' : list (nat * str)) (P : str -> str -> Prop) : Forall2 (fun p q => fst p = fst q /\ P (snd p) (snd q)) ps ps' -> map fst ps = map fst ps'.
Proof. induction 1 as [|p q ps ps' (E & _) _ IH]; [reflexivity|]. cbn [map]. rewrite E, IH. reflexivity. Qed.
Lemma hinv_changed h h' ps ps' rest : hinv h (ps ++ rest) -> map fst ps = map fst ps' -> (forall i t, In (i, t) ps' -> nth_error h' i = Some (Some t)) ->
  Forall (fun p => good_str (snd p)) ps' -> (forall i, ~ In i (map fst ps) -> nth_error h' i = nth_error h i) -> hinv h' (ps' ++ rest).
Proof.
  intros (N & E & G) EF A G' F. split; [|split].
  - rewrite map_app, <- EF, <- map_app. exact N.
  - intros i t. rewrite map_app in N. split.
    + intros X. apply in_app_or in X. destruct X as [X|X]; [exact (A i t X)|].
      rewrite F; [apply E; apply in_or_app; right; exact X|]. intros Y. exact (NoDup_app_dis _ _ i N Y (in_map fst _ _ X)).
    + intros X. apply in_or_app. destruct (in_dec Nat.eq_dec i (map fst ps)) as [Y|Y].
      * left. rewrite EF in Y. apply in_map_iff in Y. destruct Y as ((j, u) & <- & Y). cbn [fst] in *. rewrite (A j u Y) in X. injection X as <-. exact Y.
      * right. rewrite (F i Y) in X. apply E in X. apply in_app_or in X. destruct X as [X|X]; [destruct (Y (in_map fst _ _ X))|exact X].
  - apply Forall_app in G. apply Forall_app. split; [exact G'|exact (proj2 G)].
Qed.
(* No leak *)
Lemma alive_length h all : hinv h all -> alive h = length all.
Proof.
  intros (N & E & _).
  set (liv := fix liv (n : nat) (h : strs) : list nat := match h with [] => [] | Some _ :: h => n :: liv (S n) h | None :: h => liv (S n) h end).
  assert (L1 : forall h n, alive h = length (liv n h)).
  { clear. induction h as [|[t|] h IH]; intros n; cbn; [reflexivity|rewrite (IH (S n)); reflexivity|apply IH]. }
  assert (L2 : forall h n i, In i (liv n h) <-> (n <= i)%nat /\ exists t, nth_error h (i - n) = Some (Some t)).
  { clear. induction h as [|x h IH]; intros n i.
    - cbn. split; [intros []|]. intros (_ & t & X). destruct (i - n)%nat; discriminate.
    - assert (S1 : (S n <= i)%nat /\ (exists t, nth_error h (i - S n) = Some (Some t)) <-> (n < i)%nat /\ (exists t, nth_error (x :: h) (i - n) = Some (Some t))).
      { split; intros (L & t & X); (split; [lia|]); exists t.
        - replace (i - n)%nat with (S (i - S n)) by lia. exact X.
        - replace (i - n)%nat with (S (i - S n)) in X by lia. exact X. }
      destruct x as [t|].
      + cbn [liv]. change (n = i \/ In i (liv (S n) h) <-> (n <= i)%nat /\ exists t0, nth_error (Some t :: h) (i - n) = Some (Some t0)). rewrite IH, S1. split.
        * intros [<-|(L & X)]; [split; [lia|]; exists t; rewrite Nat.sub_diag; reflexivity|]. split; [lia|exact X].
        * intros (L & X). destruct (Nat.eq_dec n i) as [e|ne]; [left; exact e|right]. split; [lia|exact X].
      + change (In i (liv (S n) h) <-> (n <= i)%nat /\ exists t0, nth_error (None :: h) (i - n) = Some (Some t0)). rewrite IH, S1. split.
        * intros (L & X). split; [lia|exact X].
        * intros (L & X). destruct (Nat.eq_dec n i) as [<-|ne]; [|split; [lia|exact X]]. exfalso. rewrite Nat.sub_diag in X. destruct X as (t & X). discriminate. }
  assert (L3 : forall h n, NoDup (liv n h)).
  { clear - L2. induction h as [|[t|] h IH]; intros n; cbn; [constructor| |apply IH]. constructor; [|apply IH]. intros X. apply L2 in X. lia. }
  rewrite (L1 h O), <- (map_length fst all). apply Permutation_length. apply NoDup_Permutation; [apply L3|exact N|].
  intros i. rewrite (L2 h O i), Nat.sub_0_r. split.
  - intros (_ & t & X). apply E in X. exact (in_map fst _ _ X).
  - intros X. apply in_map_iff in X. destruct X as ((j, t) & <- & X). split; [lia|]. exists t. apply E. exact X.
Qed.

(* ---- Variables ---- *)
Definition somes (q : list (option (nat * str))) : list (nat * str) := flat_map (fun x => match x with Some p => [p] | None => [] end) q.
Definition rel_with (s : state) (w : world) (p : list (list (nat * str))) (q : list (option (nat * str))) : Prop :=
  hinv (s_heap s) (concat p ++ somes q) /\ Forall2 (fun x ps => holds x (map fst ps) /\ len ps < 2^31) (s_vars s) p /\ s_own s = map (option_map fst) q /\
  w_vars w = map (map snd) p /\ w_own w = map (option_map snd) q /\ s_out s = w_out w.
Definition rel (s : state) (w : world) : Prop := exists p q, rel_with s w p q.

Lemma forall2_nth {A B} (P : A -> B -> Prop) l m : Forall2 P l m -> forall i b, nth_error m i = Some b -> exists a, nth_error l i = Some a /\ P a b.
Proof.
  induction 1 as [|a b l m H _ IH]; intros [|i] c E; try discriminate; [injection E as <-; exists a; split; [reflexivity|exact H]|exact (IH i c E)].
Qed.
Lemma forall2_upd {A B} (P : A -> B -> Prop) l m i a b : Forall2 P l m -> P a b -> Forall2 P (upd l i a) (upd m i b).
Proof. intros F Pab. revert i. induction F as [|x y l m H F IH]; intros [|i]; cbn [upd]; constructor; auto. Qed.
Lemma concat_upd {A} (p : list (list A)) v ps : nth_error p v = Some ps -> exists rest, forall ps', Permutation (concat (upd p v ps')) (ps' ++ rest).
Proof.
  revert v. induction p as [|x p IH]; intros [|v] E; try discriminate; cbn [nth_error] in E.
  - exists (concat p). intros ps'. apply Permutation_refl.
  - destruct (IH v E) as (rest & H). exists (x ++ rest). intros ps'. cbn [upd concat]. rewrite (H ps'). rewrite !app_assoc. apply Permutation_app_tail. apply Permutation_app_comm.
Qed.
Lemma upd_same {A} (l : list A) v x : nth_error l v = Some x -> upd l v x = l.
Proof. revert v. induction l as [|y l IH]; intros [|v] E; try discriminate; cbn [upd nth_error] in *; [injection E as ->; reflexivity|]. rewrite (IH v E). reflexivity. Qed.
Lemma map_upd {A B} (f : A -> B) l v x : map f (upd l v x) = upd (map f l) v (f x).
Proof. revert v. induction l as [|y l IH]; intros [|v]; cbn [upd map]; try reflexivity. rewrite IH. reflexivity. Qed.
Lemma somes_upd q j i t : nth_error q j = Some (Some (i, t)) -> Permutation (somes q) ((i, t) :: somes (upd q j None)).
Proof.
  revert j. induction q as [|x q IH]; intros [|j] E; try discriminate; cbn [nth_error] in E.
  - injection E as ->. apply Permutation_refl.
  - cbn [upd somes flat_map]. unfold somes in IH. rewrite (IH j E). destruct x as [p|]; [|apply Permutation_refl]. cbn [app]. apply perm_swap.
Qed.
Lemma somes_app a b : somes (a ++ b) = somes a ++ somes b.
Proof. apply flat_map_app. Qed.
Lemma in_concat_nth {A} (p : list (list A)) v ps x : nth_error p v = Some ps -> In x ps -> In x (concat p).
Proof. intros E X. apply in_concat. exists ps. split; [exact (nth_error_In _ _ E)|exact X]. Qed.

(* A variable: its pointer, strings, and the rest *)
Lemma room_ok s w p q v : rel_with s w p q -> room w v -> exists x ps rest, nth_error (s_vars s) v = Some x /\ nth_error p v = Some ps /\
  list_of w v = map snd ps /\ array (s_heap s) x ps /\ (forall ps', Permutation (concat (upd p v ps') ++ somes q) (ps' ++ rest ++ somes q)) /\
  hinv (s_heap s) (ps ++ rest ++ somes q).
Proof.
  intros (HI & F & EO & EV & EW & EQ) R. unfold room in R. rewrite EV, map_length in R.
  destruct (nth_error p v) as [ps|] eqn:E; [|apply nth_error_None in E; lia]. destruct (forall2_nth _ _ _ F v ps E) as (x & Ex & Hx & Lx).
  destruct (concat_upd p v ps E) as (rest & HR). exists x, ps, rest. split; [exact Ex|]. split; [reflexivity|].
  assert (HP : forall ps', Permutation (concat (upd p v ps') ++ somes q) (ps' ++ rest ++ somes q)).
  { intros ps'. rewrite app_assoc. apply Permutation_app_tail. apply HR. }
  assert (HH : hinv (s_heap s) (ps ++ rest ++ somes q)).
  { apply (hinv_perm _ _ _ (HP ps)). rewrite (upd_same p v ps E). exact HI. }
  split; [unfold list_of; rewrite EV; apply nth_error_nth; rewrite nth_error_map, E; reflexivity|].
  split; [exact (hinv_array _ _ _ _ HH Hx Lx)|]. split; [exact HP|exact HH].
Qed.
Lemma array_holds h x ps : array h x ps -> holds x (map fst ps) /\ len ps < 2^31.
Proof. intros (H & _ & _ & L). split; [exact H|exact L]. Qed.
(* It gets a new value *)
Lemma put_ok s w p q v h x' ps' : rel_with s w p q -> hinv h (concat (upd p v ps') ++ somes q) -> holds x' (map fst ps') -> len ps' < 2^31 ->
  rel (store s v (h, x')) (put w v (map snd ps')).
Proof.
  intros (HI & F & EO & EV & EW & EQ) H HX L. exists (upd p v ps'), q. unfold rel_with, store, put. cbn [s_heap s_vars s_own s_out w_vars w_own w_out fst snd].
  split; [exact H|]. split; [apply forall2_upd; [exact F|split; [exact HX|exact L]]|]. split; [exact EO|]. split; [rewrite EV, map_upd; reflexivity|]. split; [exact EW|exact EQ].
Qed.
Lemma say_ok s w z : rel s w -> rel (answer s z) (say w z).
Proof. intros (p & q & A & B & C & D & E & F). exists p, q. unfold rel_with. cbn [answer say s_heap s_vars s_own s_out w_vars w_own w_out]. rewrite F. repeat (split; [assumption|]). reflexivity. Qed.

(* Arguments *)
Lemma value_ok s w p q a : rel_with s w p q -> known w a ->
  (exists i t, value s a = Ok (Some i) /\ text w a = Some t /\ arg (s_heap s) i t /\
     match a with AOwn j => nth_error q j = Some (Some (i, t)) | AElem v _ => exists ps, nth_error p v = Some ps /\ In (i, t) ps end) \/
  (value s a = Ok None /\ text w a = None).
Proof.
  intros R K. pose proof R as (HI & F & EO & EV & EW & EQ). destruct a as [j|v i]; cbn [value text known] in *.
  - rewrite EO, EW. rewrite nth_error_map. destruct (nth_error q j) as [[(i, t)|]|] eqn:E; cbn [option_map].
    + left. exists i, t. cbn [fst]. split; [reflexivity|]. split; [apply nth_error_nth; rewrite nth_error_map, E; reflexivity|]. split; [|reflexivity].
      apply (hinv_arg _ _ i t HI). apply in_or_app. right. apply in_flat_map. exists (Some (i, t)). split; [exact (nth_error_In _ _ E)|left; reflexivity].
    + right. split; [reflexivity|]. apply nth_error_nth. rewrite nth_error_map, E. reflexivity.
    + right. split; [reflexivity|]. apply nth_overflow. rewrite map_length. apply nth_error_None. exact E.
  - destruct K as (K & Hi). destruct (room_ok s w p q v R K) as (x & ps & rest & Ex & Ep & El & A & HP & HH). unfold var. rewrite Ex. cbn [bind].
    assert (S1 : strings (s_heap s) x ps) by (destruct A as (A1 & A2 & A3 & _); split; [exact A1|split; [exact A2|exact A3]]).
    rewrite (C46_at (s_heap s) x ps i S1 Hi), El, nth_error_map. destruct (nth_error ps (Z.to_nat i)) as [(k, t)|] eqn:E; cbn [option_map fst snd].
    + left. exists k, t. split; [reflexivity|]. split; [reflexivity|]. split; [|exists ps; split; [exact Ep|exact (nth_error_In _ _ E)]].
      apply (hinv_arg _ _ k t HI). apply in_or_app. left. exact (in_concat_nth p v ps _ Ep (nth_error_In _ _ E)).
    + right. split; reflexivity.
Qed.
Lemma values_ok s w p q l : rel_with s w p q -> Forall (known w) l -> exists r, values s l = Ok r /\ Forall2 (arg (s_heap s)) r (texts w l) /\ len (texts w l) <= len l.
Proof.
  intros R. induction 1 as [|a l K _ IH]; [exists []; split; [reflexivity|split; [constructor|reflexivity]]|].
  destruct IH as (r & E & F & L). cbn [values texts]. destruct (value_ok s w p q a R K) as [(i & t & Ev & Et & A & _)|(Ev & Et)]; rewrite Ev, Et; cbn [bind]; rewrite E; cbn [bind].
  - exists (i :: r). split; [reflexivity|]. split; [constructor; [exact A|exact F]|]. rewrite !len_cons. lia.
  - exists []. split; [reflexivity|]. split; [constructor|]. rewrite len_nil, len_cons. pose proof (len_nonneg l). lia.
Qed.

(* ---- Lists ---- *)
Lemma eqs_refl a : eqs a a = true.
Proof. unfold eqs. destruct (list_eq_dec Z.eq_dec a a) as [_|N]; [reflexivity|destruct (N eq_refl)]. Qed.
Lemma eqs_true a b : eqs a b = true -> a = b.
Proof. unfold eqs. destruct (list_eq_dec Z.eq_dec a b) as [E|N]; [intros _; exact E|discriminate]. Qed.
Lemma index_none t l : ~ In t l -> index t l = None.
Proof.
  induction l as [|x l IH]; intros N; cbn [index]; [reflexivity|]. destruct (eqs x t) eqn:E; [destruct N; left; exact (eqs_true _ _ E)|].
  rewrite IH; [reflexivity|]. intros X. apply N. right. exact X.
Qed.
Lemma index_at t a c : ~ In t a -> index t (a ++ t :: c) = Some (length a).
Proof.
  induction a as [|x a IH]; intros N; cbn [app index]; [rewrite eqs_refl; reflexivity|]. destruct (eqs x t) eqn:E; [destruct N; left; exact (eqs_true _ _ E)|].
  rewrite IH; [reflexivity|]. intros X. apply N. right. exact X.
Qed.
Lemma existsb_in t l : existsb (eqs t) l = true <-> In t l.
Proof.
  rewrite existsb_exists. split; [intros (x & X & E); rewrite (eqs_true _ _ E); exact X|]. intros X. exists t. split; [exact X|apply eqs_refl].
Qed.
Lemma first_remove t ps : map snd (fst (without_first t ps)) = remove1 t (map snd ps) /\ Permutation ps (snd (without_first t ps) ++ fst (without_first t ps)).
Proof.
  induction ps as [|(i, x) ps (IH1 & IH2)]; cbn [without_first map remove1]; [split; [reflexivity|constructor]|]. unfold is_str. cbn [snd]. change (eqs x t) with (str_eqb x t). destruct (str_eqb x t).
  - split; [reflexivity|apply Permutation_refl].
  - destruct (without_first t ps) as (k, d). cbn [fst snd map] in *. rewrite IH1. split; [reflexivity|]. rewrite IH2 at 1. apply Permutation_middle.
Qed.
Lemma all_remove t ps : map snd (fst (without t ps)) = remove_all t (map snd ps) /\ Permutation ps (snd (without t ps) ++ fst (without t ps)).
Proof.
  unfold without, remove_all, is_str. cbn [fst snd]. induction ps as [|(i, x) ps (IH1 & IH2)]; cbn [filter map snd]; [split; [reflexivity|constructor]|].
  change (eqs x t) with (str_eqb x t). destruct (str_eqb x t); cbn [negb map snd app].
  - split; [exact IH1|]. apply Permutation_cons; [reflexivity|exact IH2].
  - rewrite IH1. split; [reflexivity|]. rewrite IH2 at 1. apply Permutation_middle.
Qed.
Lemma uniq_once seen ps : map snd (fst (uniq seen ps)) = once seen (map snd ps) /\ Permutation ps (snd (uniq seen ps) ++ fst (uniq seen ps)).
Proof.
  revert seen. induction ps as [|(i, x) ps IH]; intros seen; cbn [uniq map once snd]; [split; [reflexivity|constructor]|].
  change (existsb (eqs x) seen) with (existsb (str_eqb x) seen). destruct (existsb (str_eqb x) seen).
  - destruct (IH seen) as (IH1 & IH2). destruct (uniq seen ps) as (k, d). cbn [fst snd] in *. split; [exact IH1|]. cbn [app]. apply Permutation_cons; [reflexivity|exact IH2].
  - destruct (IH (x :: seen)) as (IH1 & IH2). destruct (uniq (x :: seen) ps) as (k, d). cbn [fst snd map] in *. rewrite IH1. split; [reflexivity|].
    rewrite IH2 at 1. apply Permutation_middle.
Qed.
Lemma len_le_perm {A} (ps d k : list A) : Permutation ps (d ++ k) -> len k <= len ps.
Proof. intros P. apply Permutation_length in P. rewrite app_length in P. unfold len. lia. Qed.

(* Sorting: there is only one sorted list *)
Definition le (asc : bool) (a b : str) : Prop := in_order asc a b.
Lemma le_antisym asc a b : le asc a b -> le asc b a -> a = b.
Proof. unfold le, in_order. rewrite (lexc_opp b a). destruct asc; destruct (lexc b a) eqn:E; cbn; intros H1 H2; try congruence; symmetry; apply lexc_eq; exact E. Qed.
Lemma le_trans asc a b c : le asc a b -> le asc b c -> le asc a c.
Proof. exact (in_order_trans asc a b c). Qed.
Lemma sorted_unique asc l m : Permutation l m -> StronglySorted (le asc) l -> StronglySorted (le asc) m -> l = m.
Proof.
  revert m. induction l as [|x l IH]; intros m P SL SM; [apply Permutation_nil in P; symmetry; exact P|].
  destruct m as [|y m]; [apply Permutation_sym in P; apply Permutation_nil in P; discriminate|].
  inversion SL as [|? ? SL1 FL]; subst. inversion SM as [|? ? SM1 FM]; subst.
  assert (E : x = y).
  { assert (X : In x (y :: m)) by (apply (Permutation_in x P); left; reflexivity). assert (Y : In y (x :: l)) by (apply (Permutation_in y (Permutation_sym P)); left; reflexivity).
    destruct X as [X|X]; [symmetry; exact X|]. destruct Y as [Y|Y]; [exact Y|].
    apply (le_antisym asc); [exact (proj1 (Forall_forall _ _) FL y Y)|exact (proj1 (Forall_forall _ _) FM x X)]. }
  subst y. apply Permutation_cons_inv in P. rewrite (IH m P SL1 SM1). reflexivity.
Qed.
Lemma insert_perm asc x l : Permutation (x :: l) (insert asc x l).
Proof.
  induction l as [|y l IH]; cbn [insert]; [apply Permutation_refl|]. destruct (match lexc x y with Gt => negb asc | Lt => asc | Eq => true end); [apply Permutation_refl|].
  rewrite <- IH. apply perm_swap.
Qed.
Lemma insert_sorted asc x l : StronglySorted (le asc) l -> StronglySorted (le asc) (insert asc x l).
Proof.
  induction l as [|y l IH]; intros SS; cbn [insert]; [repeat constructor|]. inversion SS as [|? ? S1 F1]; subst.
  destruct (match lexc x y with Gt => negb asc | Lt => asc | Eq => true end) eqn:E.
  - assert (L : le asc x y) by (unfold le, in_order; destruct asc, (lexc x y); try discriminate; congruence).
    constructor; [exact SS|]. constructor; [exact L|]. apply Forall_forall. intros z Z. exact (le_trans asc x y z L (proj1 (Forall_forall _ _) F1 z Z)).
  - assert (L : le asc y x) by (unfold le, in_order; rewrite (lexc_opp x y); destruct asc, (lexc x y); try discriminate; cbn; congruence).
    constructor; [exact (IH S1)|]. apply Forall_forall. intros z Z. apply (Permutation_in z (Permutation_sym (insert_perm asc x l))) in Z.
    destruct Z as [<-|Z]; [exact L|exact (proj1 (Forall_forall _ _) F1 z Z)].
Qed.
Lemma sorted_ok asc l : Permutation l (sorted asc l) /\ StronglySorted (le asc) (sorted asc l).
Proof.
  induction l as [|x l (IH1 & IH2)]; cbn [sorted fold_right]; [split; constructor|]. split; [|apply insert_sorted; exact IH2].
  fold (sorted asc l). rewrite <- (insert_perm asc x (sorted asc l)). apply Permutation_cons; [reflexivity|exact IH1].
Qed.

(* Stripping: there is only one stripped string *)
Lemma whiteb_ok c : whiteb c = true <-> white c.
Proof. unfold whiteb, white. rewrite !orb_true_iff, !Z.eqb_eq. tauto. Qed.
Lemma cut_white pre r : Forall white pre -> cut (pre ++ r) = cut r.
Proof. induction 1 as [|c pre W _ IH]; cbn [app cut]; [reflexivity|]. rewrite (proj2 (whiteb_ok c) W). exact IH. Qed.
Lemma cut_stop r : (forall c t, r = c :: t -> ~ white c) -> cut r = r.
Proof. destruct r as [|c t]; intros H; [reflexivity|]. cbn [cut]. destruct (whiteb c) eqn:E; [destruct (H c t eq_refl); apply whiteb_ok; exact E|reflexivity]. Qed.
Lemma stripped_trim s r : stripped s r -> r = trim s.
Proof.
  intros (pre & post & -> & W1 & W2 & N1 & N2). unfold trim. rewrite (cut_white pre _ W1). destruct r as [|c t].
  - cbn [app]. rewrite <- (app_nil_r post), (cut_white post [] W2). reflexivity.
  - assert (E : cut ((c :: t) ++ post) = (c :: t) ++ post) by (apply cut_stop; intros c0 t0 [= <- <-]; exact (N1 c t eq_refl)).
    rewrite E, rev_app_distr, cut_white by (apply Forall_rev; exact W2). rewrite cut_stop; [rewrite rev_involutive; reflexivity|].
    intros c0 t0 E0. apply (N2 c0 (rev t0)). rewrite <- (rev_involutive (c :: t)), E0. reflexivity.
Qed.
Lemma stripped_good s r : stripped s r -> good_str s -> good_str r.
Proof. intros (pre & post & -> & _) G. unfold good_str in *. apply Forall_app in G. destruct G as (_ & G). apply Forall_app in G. exact (proj1 G). Qed.

(* ---- One operation ---- *)
Lemma store_same s v x : nth_error (s_vars s) v = Some x -> store s v (s_heap s, x) = s.
Proof. intros E. unfold store. cbn [fst snd]. rewrite (upd_same _ _ _ E). destruct s; reflexivity. Qed.
(* A part of the array is freed *)
Lemma freed_ok s w p q v x ps rest h' x' k d l : rel_with s w p q -> (forall ps', Permutation (concat (upd p v ps') ++ somes q) (ps' ++ rest ++ somes q)) ->
  hinv (s_heap s) (ps ++ rest ++ somes q) -> array (s_heap s) x ps -> Permutation ps (d ++ k) -> frees (s_heap s) (map fst d) h' -> array h' x' k -> map snd k = l ->
  rel (store s v (h', x')) (put w v l).
Proof.
  intros R HP HH A P F A' <-. destruct (array_holds _ _ _ A') as (H1 & H2). apply (put_ok s w p q v h' x' k R); [|exact H1|exact H2].
  apply (hinv_perm _ _ _ (Permutation_sym (HP k))). apply (hinv_frees (s_heap s) h' d); [|exact F]. apply (hinv_perm _ _ _ (Permutation_app_tail (rest ++ somes q) P)) in HH.
  rewrite <- app_assoc in HH. exact HH.
Qed.
Lemma added_ok s w p q v x ps rest ts x' : rel_with s w p q -> (forall ps', Permutation (concat (upd p v ps') ++ somes q) (ps' ++ rest ++ somes q)) ->
  hinv (s_heap s) (ps ++ rest ++ somes q) -> array (s_heap s) x ps -> Forall good_str ts ->
  array (s_heap s ++ map Some ts) x' (ps ++ number (length (s_heap s)) ts) -> rel (store s v (s_heap s ++ map Some ts, x')) (put w v (map snd ps ++ ts)).
Proof.
  intros R HP HH A G A'. destruct (array_holds _ _ _ A') as (H1 & H2). rewrite <- (number_snd (length (s_heap s)) ts), <- map_app, number_snd.
  apply (put_ok s w p q v _ x' _ R); [|exact H1|exact H2].
  apply (hinv_perm _ _ _ (Permutation_sym (HP _))). apply (hinv_perm _ (number (length (s_heap s)) ts ++ ps ++ rest ++ somes q)).
  - rewrite app_assoc. apply Permutation_app_tail. apply Permutation_app_comm.
  - exact (hinv_new _ _ ts HH G).
Qed.
Lemma nth_same {A} (a b : list A) : (forall n, nth_error a n = nth_error b n) -> a = b.
Proof.
  revert b. induction a as [|x a IH]; intros [|y b] E; [reflexivity|discriminate (E O)|discriminate (E O)|].
  pose proof (E O) as E0. injection E0 as ->. f_equal. apply IH. intros n. exact (E (S n)).
Qed.
Lemma args_good h l ts : Forall2 (arg h) l ts -> Forall good_str ts.
Proof. induction 1 as [|i t l ts (_ & G) _ IH]; constructor; auto. Qed.
Lemma array_strings h x ps : array h x ps -> strings h x ps.
Proof. intros (A1 & A2 & A3 & _). split; [exact A1|split; [exact A2|exact A3]]. Qed.
Lemma last_at t a c : ~ In t c -> index t (rev (a ++ t :: c)) = Some (length c).
Proof. intros N. rewrite rev_app_distr. cbn [rev]. rewrite <- app_assoc. cbn [app]. rewrite index_at; [rewrite rev_length; reflexivity|]. intros X. apply N. apply in_rev. exact X. Qed.
Lemma nth_split_pair (ps : list (nat * str)) n i t : nth_error ps n = Some (i, t) -> ps = firstn n ps ++ (i, t) :: skipn (S n) ps /\ length (firstn n ps) = n.
Proof.
  intros E. pose proof (nth_error_split ps n E) as (a & c & -> & <-). rewrite firstn_app, Nat.sub_diag, firstn_all. cbn [firstn]. rewrite app_nil_r.
  rewrite skipn_app. replace (S (length a) - length a)%nat with 1%nat by lia. rewrite skipn_all2 by lia. split; reflexivity.
Qed.
Lemma known_not_in s w p q v a i t ps rest : rel_with s w p q -> nth_error p v = Some ps -> hinv (s_heap s) (ps ++ rest ++ somes q) ->
  (forall ps', Permutation (concat (upd p v ps') ++ somes q) (ps' ++ rest ++ somes q)) ->
  match a with AOwn j => nth_error q j = Some (Some (i, t)) | AElem u _ => exists ps', nth_error p u = Some ps' /\ In (i, t) ps' end ->
  match a with AOwn _ => True | AElem u _ => u <> v end -> ~ In i (map fst ps).
Proof.
  intros R Ep (N & _ & _) HP X D Y. rewrite map_app in N. apply (NoDup_app_dis _ _ i N Y). clear Y. apply (in_map fst _ (i, t)).
  destruct a as [j|u k].
  - apply in_or_app. right. apply in_flat_map. exists (Some (i, t)). split; [exact (nth_error_In _ _ X)|left; reflexivity].
  - destruct X as (ps' & E' & X). assert (Z : In (i, t) (concat (upd p v []) ++ somes q)).
    { apply in_or_app. left. apply (in_concat_nth _ u ps' _); [|exact X]. rewrite nth_error_upd_ne by congruence. exact E'. }
    apply (Permutation_in _ (HP [])) in Z. exact Z.
Qed.

Lemma step_ok qsort scmp s w o : good_qsort qsort -> good_strcmp scmp -> rel s w -> allowed w o -> exists s', step qsort scmp s o = Ok s' /\ rel s' (after w o).
Proof.
  intros GQ GS (p & q & R) A. pose proof R as (HI & F & EO & EV & EW & EQ). destruct o as [t|j|v a|v l|v pos fr|v a all|v|v asc|v|v|v|v a|v a|v a|v a asc|v u]; cbn [step after allowed] in *.
  - (* ONew *)
    eexists. split; [reflexivity|]. exists p, (q ++ [Some (length (s_heap s), t)]). unfold rel_with. cbn [s_heap s_vars s_own s_out w_vars w_own w_out].
    rewrite !map_app, EO, EW, somes_app. cbn [map option_map fst snd somes flat_map app].
    split; [|split; [exact F|split; [reflexivity|split; [exact EV|split; [reflexivity|exact EQ]]]]].
    apply (hinv_perm _ ((length (s_heap s), t) :: concat p ++ somes q)); [rewrite app_assoc; apply Permutation_cons_append|].
    exact (hinv_new (s_heap s) _ [t] HI (Forall_cons t A (Forall_nil _))).
  - (* OFree *)
    rewrite EO, nth_error_map. destruct (nth_error q j) as [[(i, t)|]|] eqn:E; cbn [option_map fst].
    + pose proof (somes_upd q j i t E) as P.
      assert (H1 : hinv (s_heap s) ([(i, t)] ++ concat p ++ somes (upd q j None))).
      { apply (hinv_perm _ (concat p ++ somes q)); [|exact HI]. rewrite P. cbn [app]. apply Permutation_sym. apply (Permutation_middle (concat p) (somes (upd q j None)) (i, t)). }
      destruct (free_obj_spec (s_heap s) (s_heap s) [] i (frees_nil _) (fun X => X)) as (h' & Eh & Fh).
      { exists t. apply H1. left. reflexivity. }
      rewrite Eh. cbn [bind]. eexists. split; [reflexivity|]. exists p, (upd q j None). unfold rel_with. cbn [s_heap s_vars s_own s_out w_vars w_own w_out].
      rewrite EW, !map_upd. cbn [option_map].
      split; [exact (hinv_frees _ _ [(i, t)] _ H1 Fh)|]. split; [exact F|]. split; [reflexivity|]. split; [exact EV|]. split; [reflexivity|exact EQ].
    + eexists. split; [reflexivity|]. exists p, q. unfold rel_with. cbn [w_vars w_own w_out]. rewrite (upd_same (w_own w) j None); [exact R|].
      rewrite EW, nth_error_map, E. reflexivity.
    + eexists. split; [reflexivity|]. exists p, q. unfold rel_with. cbn [w_vars w_own w_out]. replace (upd (w_own w) j None) with (w_own w); [exact R|].
      symmetry. apply nth_error_None in E. rewrite EW. rewrite <- (map_length (option_map snd) q) in E. revert j E. generalize (map (option_map snd) q) as m.
      induction m as [|y m IH]; intros [|j] L; cbn [upd length] in *; try reflexivity; try lia. rewrite IH by lia. reflexivity.
  - (* OAdd *)
    destruct A as (Rv & K & L). destruct (room_ok s w p q v R Rv) as (x & ps & rest & Ex & Ep & El & Ar & HP & HH). unfold var. rewrite Ex. cbn [bind]. unfold with_text.
    destruct (value_ok s w p q a R K) as [(i & t & Ev & Et & Ag & _)|(Ev & Et)]; rewrite Ev, Et; cbn [bind].
    + rewrite El, len_map in L. destruct (add_spec _ _ _ i t Ar Ag L) as (x' & Ea & A'). rewrite Ea. cbn [bind]. eexists. split; [reflexivity|]. rewrite El.
      apply (added_ok s w p q v x ps rest [t] x' R HP HH Ar); [constructor; [exact (proj2 Ag)|constructor]|exact A'].
    + cbn [strv_add bind]. eexists. split; [reflexivity|]. rewrite (store_same s v x Ex). exists p, q. exact R.
  - (* OAddv *)
    destruct A as (Rv & K & L). destruct (room_ok s w p q v R Rv) as (x & ps & rest & Ex & Ep & El & Ar & HP & HH). unfold var. rewrite Ex. cbn [bind].
    destruct (values_ok s w p q l R K) as (r & Er & Fr & Lr). rewrite Er. cbn [bind]. rewrite El, len_map in L.
    destruct (addv_spec _ _ _ _ _ Ar Fr ltac:(lia)) as (x' & Ea & A'). rewrite Ea. cbn [bind]. eexists. split; [reflexivity|]. rewrite El.
    exact (added_ok s w p q v x ps rest _ x' R HP HH Ar (args_good _ _ _ Fr) A').
  - (* ORemoveAt *)
    destruct A as (Rv & L). destruct (room_ok s w p q v R Rv) as (x & ps & rest & Ex & Ep & El & Ar & HP & HH). unfold var. rewrite Ex. cbn [bind].
    destruct (C47_remove_at_partial _ _ _ pos fr Ar) as (RA1 & RA2). rewrite Z.geb_leb. destruct (Z.ltb_spec pos 0) as [N|N].
    + rewrite (proj2 (Z.leb_gt 0 pos) N). cbn [bind]. rewrite (RA2 (or_introl N)). cbn [bind]. eexists. split; [reflexivity|]. rewrite (store_same s v x Ex). exists p, q. exact R.
    + rewrite (proj2 (Z.leb_le 0 pos) N). rewrite (C46_at _ _ _ pos (array_strings _ _ _ Ar)) by lia. cbn [bind]. rewrite El, nth_error_map.
      destruct (nth_error ps (Z.to_nat pos)) as [(i, t)|] eqn:E; cbn [option_map fst snd].
      * destruct (nth_split_pair _ _ _ _ E) as (Es & Ls). destruct (RA1 _ i t _ Es) as (h' & x' & Er & A' & Fr); [unfold len; rewrite Ls; lia|]. rewrite Er. cbn [bind].
        eexists. split; [reflexivity|]. rewrite firstn_map, skipn_map, <- map_app.
        assert (P : Permutation ps ([(i, t)] ++ firstn (Z.to_nat pos) ps ++ skipn (S (Z.to_nat pos)) ps)) by (rewrite Es at 1; apply Permutation_sym; apply (Permutation_middle (firstn (Z.to_nat pos) ps) (skipn (S (Z.to_nat pos)) ps) (i, t))).
        destruct fr.
        -- exact (freed_ok s w p q v x ps rest h' x' _ [(i, t)] _ R HP HH Ar P Fr A' eq_refl).
        -- assert (Eh : h' = s_heap s) by (apply nth_same; intros n; apply (proj2 Fr n); intros []). subst h'.
           set (k := firstn (Z.to_nat pos) ps ++ skipn (S (Z.to_nat pos)) ps) in *. destruct (array_holds _ _ _ A') as (H1 & H2).
           exists (upd p v k), (q ++ [Some (i, t)]). unfold rel_with, store, put. cbn [s_heap s_vars s_own s_out w_vars w_own w_out fst snd].
           rewrite !map_app, EO, EW, somes_app. cbn [map option_map fst snd somes flat_map app].
           split; [|split; [apply forall2_upd; [exact F|split; [exact H1|exact H2]]|split; [reflexivity|split; [rewrite EV, map_upd; reflexivity|split; [reflexivity|exact EQ]]]]].
           apply (hinv_perm _ (ps ++ rest ++ somes q)); [|exact HH]. rewrite P, <- app_assoc. cbn [app]. rewrite <- (HP k). rewrite (app_assoc (concat (upd p v k))). apply Permutation_cons_append.
      * rewrite RA2 by (right; apply nth_error_None in E; unfold len; lia). cbn [bind]. eexists. split; [reflexivity|]. rewrite (store_same s v x Ex). exists p, q. exact R.
  - (* ORemove *)
    destruct A as (Rv & K & D). destruct (room_ok s w p q v R Rv) as (x & ps & rest & Ex & Ep & El & Ar & HP & HH). unfold var. rewrite Ex. cbn [bind]. unfold with_text.
    destruct (value_ok s w p q a R K) as [(i & t & Ev & Et & Ag & X)|(Ev & Et)]; rewrite Ev, Et; cbn [bind].
    + assert (RS : let (k, d) := if (all : bool) then without t ps else without_first t ps in
        exists h' v', strv_remove scmp (s_heap s) x (Some i) all = Ok (h', v') /\ array h' v' k /\ frees (s_heap s) (map fst d) h').
      { destruct all; [|apply (C47_remove_partial scmp (s_heap s) x ps i t false GS Ar Ag); discriminate]. specialize (D eq_refl).
        destruct (match a with AOwn _ => left Logic.I | AElem u _ => match Nat.eq_dec u v with left e => right e | right n => left n end end
          : {match a with AOwn _ => True | AElem u _ => u <> v end} + {match a with AOwn _ => False | AElem u _ => u = v end}) as [D1|D1].
        - apply (C47_remove_partial scmp (s_heap s) x ps i t true GS Ar Ag). intros _. exact (known_not_in s w p q v a i t ps rest R Ep HH HP X D1).
        - destruct a as [j|u k]; [destruct D1|]. subst u. cbn [harmless] in D. rewrite Et in D. destruct (D eq_refl) as [D2|D2]; [discriminate|].
          assert (Ei : nth_error ps (Z.to_nat k) = Some (i, t)).
          { cbn [value] in Ev. unfold var in Ev. rewrite Ex in Ev. cbn [bind] in Ev. cbn [known] in K. rewrite (C46_at _ _ _ k (array_strings _ _ _ Ar) (proj2 K)) in Ev. injection Ev as Ev.
            cbn [text] in Et. rewrite El, nth_error_map in Et. destruct (nth_error ps (Z.to_nat k)) as [(i', t')|]; [|discriminate]. cbn in Ev, Et. congruence. }
          rewrite El in D2. pose proof (proj1 (C47_remove_alias_partial scmp (s_heap s) x ps (Z.to_nat k) i t GS Ar Ei) D2) as Y. destruct (without t ps) as (kk, dd). exact Y. }
      rewrite El. destruct all.
      * destruct (all_remove t ps) as (E1 & P). destruct (without t ps) as (k, d). destruct RS as (h' & x' & Er & A' & Fr). rewrite Er. cbn [bind]. eexists. split; [reflexivity|].
        exact (freed_ok s w p q v x ps rest h' x' k d _ R HP HH Ar P Fr A' E1).
      * destruct (first_remove t ps) as (E1 & P). destruct (without_first t ps) as (k, d). destruct RS as (h' & x' & Er & A' & Fr). rewrite Er. cbn [bind]. eexists. split; [reflexivity|].
        exact (freed_ok s w p q v x ps rest h' x' k d _ R HP HH Ar P Fr A' E1).
    + replace (strv_remove scmp (s_heap s) x None all) with (@Ok (strs * vec) (s_heap s, x)) by (destruct x; reflexivity). cbn [bind]. eexists. split; [reflexivity|].
      rewrite (store_same s v x Ex). exists p, q. exact R.
  - (* ODups *)
    destruct (room_ok s w p q v R A) as (x & ps & rest & Ex & Ep & El & Ar & HP & HH). unfold var. rewrite Ex. cbn [bind].
    destruct (C48_remove_dups_partial scmp _ _ _ GS Ar) as (h' & x' & Er & A' & Fr). rewrite Er. cbn [bind]. eexists. split; [reflexivity|]. rewrite El.
    destruct (uniq_once [] ps) as (E1 & P). exact (freed_ok s w p q v x ps rest h' x' _ _ _ R HP HH Ar P Fr A' E1).
  - (* OSort *)
    destruct (room_ok s w p q v R A) as (x & ps & rest & Ex & Ep & El & Ar & HP & HH). unfold var. rewrite Ex. cbn [bind].
    destruct (C49_sort_partial qsort scmp _ _ _ asc GQ GS Ar) as (x' & k & Er & A' & P & SS). rewrite Er. cbn [bind]. eexists. split; [reflexivity|]. rewrite El.
    assert (E1 : map snd k = sorted asc (map snd ps)).
    { destruct (sorted_ok asc (map snd ps)) as (P1 & S1). apply (sorted_unique asc); [|exact SS|exact S1]. rewrite <- P1. apply Permutation_map. apply Permutation_sym. exact P. }
    exact (freed_ok s w p q v x ps rest (s_heap s) x' k [] _ R HP HH Ar P (frees_nil _) A' E1).
  - (* OStrip *)
    destruct (room_ok s w p q v R A) as (x & ps & rest & Ex & Ep & El & Ar & HP & HH). unfold var. rewrite Ex. cbn [bind].
    destruct (C50_strip _ _ _ (array_strings _ _ _ Ar)) as (h' & k & Er & (H1 & H2 & H3) & F2 & Lh & Fr). rewrite Er. cbn [bind]. eexists. split; [reflexivity|]. rewrite El.
    assert (E1 : map snd k = map trim (map snd ps)).
    { clear - F2. induction F2 as [|a b ps k (_ & St1) _ IH]; cbn [map]; [reflexivity|]. rewrite IH, (stripped_trim _ _ St1). reflexivity. }
    rewrite <- E1. apply (put_ok s w p q v h' x k R).
    + apply (hinv_perm _ _ _ (Permutation_sym (HP k))). apply (hinv_changed (s_heap s) h' ps k _ HH (forall2_fst _ _ _ F2)); [intros i t X; apply H3; exact X| |exact Fr].
      apply Forall_forall. intros (i, t) X. exact (proj2 (H3 i t X)).
    + exact H1.
    + replace (len k) with (len ps); [exact (proj2 (array_holds _ _ _ Ar))|]. rewrite <- (len_map fst ps), <- (len_map fst k), (forall2_fst _ _ _ F2). reflexivity.
  - (* OClear *)
    destruct (room_ok s w p q v R A) as (x & ps & rest & Ex & Ep & El & Ar & HP & HH). unfold var. rewrite Ex. cbn [bind]. pose proof Ar as (H1 & H2 & H3 & _).
    destruct (ptrv_free_spec (s_heap s) x _ H1 H2) as (h' & Er & Fr).
    { intros i X. apply in_map_iff in X. destruct X as ((j, t) & <- & X). exists t. exact (proj1 (H3 j t X)). }
    rewrite Er. cbn [bind]. eexists. split; [reflexivity|].
    apply (freed_ok s w p q v x ps rest h' None [] ps [] R HP HH Ar); [rewrite app_nil_r; apply Permutation_refl|exact Fr| |reflexivity].
    split; [reflexivity|]. split; [constructor|]. split; [intros i t []|reflexivity].
  - (* OLength *)
    destruct (room_ok s w p q v R A) as (x & ps & rest & Ex & Ep & El & Ar & HP & HH). unfold var. rewrite Ex. cbn [bind]. rewrite (array_length _ _ _ Ar). cbn [bind].
    eexists. split; [reflexivity|]. rewrite El, len_map. apply say_ok. exists p, q. exact R.
  - (* OFind *)
    destruct A as (Rv & K). destruct (room_ok s w p q v R Rv) as (x & ps & rest & Ex & Ep & El & Ar & HP & HH). unfold var. rewrite Ex. cbn [bind]. unfold with_text.
    destruct (value_ok s w p q a R K) as [(i & t & Ev & Et & Ag & _)|(Ev & Et)]; rewrite Ev, Et; cbn [bind].
    + rewrite El. destruct (strv_find_spec scmp _ _ _ i t GS Ar Ag) as [(E & N)|(b & y & c & -> & N & E)]; rewrite E; cbn [bind]; eexists; (split; [reflexivity|]).
      * unfold first_index. rewrite (index_none _ _ N). apply say_ok. exists p, q. exact R.
      * unfold first_index. rewrite map_app. cbn [map snd]. rewrite (index_at _ _ _ N), map_length. apply say_ok. exists p, q. exact R.
    + replace (strv_find scmp (s_heap s) x None) with (@Ok Z (-1)) by (destruct x; reflexivity). cbn [bind]. eexists. split; [reflexivity|]. apply say_ok. exists p, q. exact R.
  - (* OFindLast *)
    destruct A as (Rv & K). destruct (room_ok s w p q v R Rv) as (x & ps & rest & Ex & Ep & El & Ar & HP & HH). unfold var. rewrite Ex. cbn [bind]. unfold with_text.
    destruct (value_ok s w p q a R K) as [(i & t & Ev & Et & Ag & _)|(Ev & Et)]; rewrite Ev, Et; cbn [bind].
    + rewrite El. destruct (strv_find_last_spec scmp _ _ _ i t GS Ar Ag) as [(E & N)|(b & y & c & -> & N & E)]; rewrite E; cbn [bind]; eexists; (split; [reflexivity|]).
      * unfold last_index. rewrite index_none by (intros X; apply N; apply in_rev; exact X). apply say_ok. exists p, q. exact R.
      * unfold last_index. rewrite map_app. cbn [map snd]. rewrite (last_at _ _ _ N), map_length.
        replace (len (map snd b ++ t :: map snd c) - 1 - Z.of_nat (length c)) with (len b); [apply say_ok; exists p, q; exact R|].
        rewrite len_app, len_cons, !len_map. unfold len. lia.
    + cbn [strv_find_last bind]. eexists. split; [reflexivity|]. apply say_ok. exists p, q. exact R.
  - (* OContains *)
    destruct A as (Rv & K). destruct (room_ok s w p q v R Rv) as (x & ps & rest & Ex & Ep & El & Ar & HP & HH). unfold var. rewrite Ex. cbn [bind]. unfold with_text.
    destruct (value_ok s w p q a R K) as [(i & t & Ev & Et & Ag & _)|(Ev & Et)]; rewrite Ev, Et; cbn [bind]; unfold strv_contains.
    + rewrite El. destruct (strv_find_spec scmp _ _ _ i t GS Ar Ag) as [(E & N)|(b & y & c & E0 & N & E)]; rewrite E; cbn [bind]; eexists; (split; [reflexivity|]).
      * destruct (existsb (eqs t) (map snd ps)) eqn:Eb; [apply existsb_in in Eb; destruct (N Eb)|]. apply say_ok. exists p, q. exact R.
      * rewrite (proj2 (existsb_in t (map snd ps))) by (rewrite E0, map_app; apply in_or_app; right; left; reflexivity).
        rewrite Z.geb_leb, (proj2 (Z.leb_le 0 (len b)) (len_nonneg b)). apply say_ok. exists p, q. exact R.
    + replace (strv_find scmp (s_heap s) x None) with (@Ok Z (-1)) by (destruct x; reflexivity). cbn [bind]. eexists. split; [reflexivity|]. apply say_ok. exists p, q. exact R.
  - (* OSearch *)
    destruct A as (Rv & K & SS). destruct (room_ok s w p q v R Rv) as (x & ps & rest & Ex & Ep & El & Ar & HP & HH). unfold var. rewrite Ex. cbn [bind]. unfold with_text.
    destruct (value_ok s w p q a R K) as [(i & t & Ev & Et & Ag & _)|(Ev & Et)]; rewrite Ev, Et; cbn [bind].
    + rewrite El in SS |- *. destruct (bsearch_spec scmp _ _ _ i t asc GS Ar Ag SS) as [(E & N)|(n & E & Hn & X)]; rewrite E; cbn [bind]; eexists; (split; [reflexivity|]).
      * destruct (existsb (eqs t) (map snd ps)) eqn:Eb; [apply existsb_in in Eb; destruct (N Eb)|]. apply say_ok. exists p, q. exact R.
      * rewrite (proj2 (existsb_in t (map snd ps)) (nth_error_In _ _ X)). rewrite Z.geb_leb, (proj2 (Z.leb_le 0 n) Hn). apply say_ok. exists p, q. exact R.
    + cbn [strv_bsearch bind]. eexists. split; [reflexivity|]. apply say_ok. exists p, q. exact R.
  - (* OEqual *)
    destruct A as (Rv & Ru). destruct (room_ok s w p q v R Rv) as (x & ps & rest & Ex & Ep & El & Ar & HP & HH). destruct (room_ok s w p q u R Ru) as (y & ps' & rest' & Ey & Ep' & El' & Ar' & _ & _).
    unfold var. rewrite Ex, Ey. cbn [bind].
    destruct (equal_spec scmp _ (address v x) x (address u y) y ps ps' GS Ar Ar') as (b & E & Hb).
    { intros Ea. unfold address in Ea. destruct x as [bx|], y as [by_|]; try lia; [|reflexivity]. assert (v = u) by lia. subst u. rewrite Ex in Ey. exact (f_equal (fun z => match z with Some z => z | None => None end) Ey). }
    rewrite E. cbn [bind]. eexists. split; [reflexivity|]. rewrite El, El'. destruct (list_eq_dec (list_eq_dec Z.eq_dec) (map snd ps) (map snd ps')) as [Q|Q].
    + rewrite (proj2 Hb Q). apply say_ok. exists p, q. exact R.
    + destruct b; [destruct (Q (proj1 Hb eq_refl))|]. apply say_ok. exists p, q. exact R.
Qed.
(* The other case: the string is used after it was freed *)
Lemma step_alias qsort scmp s w v a : good_strcmp scmp -> rel s w -> room w v -> known w a -> ~ harmless w v a -> step qsort scmp s (ORemove v a true) = Fail UseAfterFree.
Proof.
  intros GS (p & q & R) Rv K D. destruct a as [j|u k]; cbn [harmless] in D; [destruct (D Logic.I)|].
  destruct (Nat.eq_dec u v) as [->|N]; [|destruct (D (fun e => match N e with end))]. cbn [step].
  destruct (room_ok s w p q v R Rv) as (x & ps & rest & Ex & Ep & El & Ar & HP & HH). cbn [value]. unfold var. rewrite Ex. cbn [bind].
  cbn [known] in K. rewrite (C46_at _ _ _ k (array_strings _ _ _ Ar) (proj2 K)). cbn [bind]. cbn [text] in D. rewrite El, nth_error_map in D.
  destruct (nth_error ps (Z.to_nat k)) as [(i, t)|] eqn:Ei; [|destruct (D (fun _ => or_introl eq_refl))]. cbn [option_map fst].
  rewrite (proj2 (C47_remove_alias_partial scmp (s_heap s) x ps (Z.to_nat k) i t GS Ar Ei)); [reflexivity|]. intros Y. apply D. intros _. right. exact Y.
Qed.
Lemma run_app qsort scmp l m : forall s, run qsort scmp s (l ++ m) = (do s <- run qsort scmp s l; run qsort scmp s m).
Proof. induction l as [|o l IH]; intros s; cbn [app run]; [reflexivity|]. destruct (step qsort scmp s o) as [s1|e]; cbn [bind]; [apply IH|reflexivity]. Qed.
Lemma run_ok qsort scmp l : good_qsort qsort -> good_strcmp scmp -> forall s w, rel s w -> legal w l -> exists s', run qsort scmp s l = Ok s' /\ rel s' (outcome w l).
Proof.
  intros GQ GS. induction l as [|o l IH]; intros s w R L; cbn [run legal outcome fold_left] in *; [exists s; split; [reflexivity|exact R]|].
  destruct L as (A & L). destruct (step_ok qsort scmp s w o GQ GS R A) as (s1 & E & R1). rewrite E. cbn [bind]. exact (IH s1 _ R1 L).
Qed.
Lemma start_ok n : rel (start n) (empty n).
Proof.
  exists (repeat [] n), []. unfold rel_with, start, empty. cbn [s_heap s_vars s_own s_out w_vars w_own w_out somes flat_map map].
  assert (E : concat (repeat (@nil (nat * str)) n) = []) by (induction n as [|n IH]; [reflexivity|exact IH]). rewrite E. cbn [app].
  split; [split; [constructor|split; [|constructor]]|].
  - intros i t. split; [intros []|]. destruct i; discriminate.
  - split; [|split; [reflexivity|split; [|split; reflexivity]]].
    + clear. induction n as [|n IH]; constructor; [split; [reflexivity|reflexivity]|exact IH].
    + clear. induction n as [|n IH]; [reflexivity|]. cbn [repeat map]. rewrite <- IH. reflexivity.
Qed.
