(* Lemmas about the history *)
From Verif Require Import Base.
From Verif Require RingModel RingProofs.
From Verif Require Import HistoryModel HistorySpec.
From Coq Require Import ZifyBool.
Ltac Zify.zify_post_hook ::= Z.div_mod_to_equations.

Ltac simp := cbn [max_interval first last max_size entry set_fl set_entry] in *.

Notation at_ := RingProofs.at_.
Notation crem := RingModel.crem.

Lemma arith_ok d z : -2^31 <= z < 2^31 -> arith32 d z = Ok z.
Proof. apply RingProofs.arith_ok. Qed.
Lemma arith64_ok d z : -2^63 <= z < 2^63 -> arith64 d z = Ok z.
Proof.
  intros H. unfold arith64. destruct d.
  - replace ((-2^63 <=? z) && (z <? 2^63)) with true by lia. reflexivity.
  - unfold s64. f_equal. rewrite Z.mod_small by lia. lia.
Qed.

(* an overflow can only be seen by the strict dialect *)
Definition ovf {A} (d : dialect) (x : res A) : Prop := d = Strict /\ x = Fail SignedOverflow.
Lemma arith32_any d z : (exists y, arith32 d z = Ok y) \/ ovf d (arith32 d z).
Proof. unfold ovf, arith32. destruct d; eauto. destruct (_ && _); eauto. Qed.
Lemma arith64_any d z : (exists y, arith64 d z = Ok y) \/ ovf d (arith64 d z).
Proof. unfold ovf, arith64. destruct d; eauto. destruct (_ && _); eauto. Qed.

(* ---------------- the representation ---------------- *)

Definition layout (N f l : Z) (ent : list sample) (s : list sample) : Prop :=
  (s = [] /\ f = -1 /\ l = -1) \/
  (s <> [] /\ 0 <= f < N /\ len s <= N /\ l = at_ N f (len s - 1) /\
   forall i x, 0 <= i -> nth_error s (Z.to_nat i) = Some x -> rd ent (at_ N f i) = Ok x).

Definition timed (s : list sample) : Prop := Forall (fun e => 0 <= fst e < 2^63) s.
Definition valued (s : list sample) : Prop := Forall (fun e => in_s32 (snd e)) s.

Record rep (N W : Z) (h : hist) (s : list sample) : Prop := mkRep {
  rp_N : max_size h = N;
  rp_Nr : 0 < N < 2^31;
  rp_W : max_interval h = W;
  rp_Wr : 0 < W < 2^63;
  rp_ent : len (entry h) = N;
  rp_lay : layout N (first h) (last h) (entry h) s;
  rp_inc : increasing s;
  rp_time : timed s;
  rp_val : valued s;
  rp_span : span s <= W
}.

Lemma rd_some {A} (l : list A) i x : 0 <= i -> nth_error l (Z.to_nat i) = Some x -> rd l i = Ok x.
Proof. intros H E. apply rd_ok. auto. Qed.

Lemma at_range N f i : 0 <= f < N -> 0 <= i < N -> 0 <= at_ N f i < N.
Proof. unfold RingProofs.at_. intros. destruct (f + i <? N) eqn:E; lia. Qed.
Lemma at_inj N f i j : 0 <= f < N -> 0 <= i < N -> 0 <= j < N -> at_ N f i = at_ N f j -> i = j.
Proof. unfold RingProofs.at_. intros. destruct (f + i <? N) eqn:E; destruct (f + j <? N) eqn:E2; lia. Qed.
Lemma at_next N f i : 0 <= f < N -> 0 <= i < N - 1 ->
  (if at_ N f i + 1 <? N then at_ N f i + 1 else 0) = at_ N f (i + 1).
Proof.
  unfold RingProofs.at_. intros. destruct (f + i <? N) eqn:E; destruct (f + (i + 1) <? N) eqn:E2;
    match goal with |- context[if ?c then _ else _] => destruct c eqn:E3 end; lia.
Qed.
Lemma next_ok N p d : 0 < N < 2^31 -> 0 <= p < N ->
  (do x <- arith32 d (p + 1); crem x N) = Ok (if p + 1 <? N then p + 1 else 0).
Proof.
  intros HN Hp. rewrite arith_ok by lia. cbn [bind]. rewrite RingProofs.crem_wrap by lia.
  destruct (p + 1 <? N) eqn:E; f_equal. lia.
Qed.
Lemma bind_assoc {A B C} (m : res A) (f : A -> res B) (g : B -> res C) :
  (do x <- m; do y <- f x; g y) = (do y <- (do x <- m; f x); g y).
Proof. destruct m; reflexivity. Qed.

(* ---------------- lists of samples ---------------- *)

Lemma inc_tail e s : increasing (e :: s) -> increasing s.
Proof. destruct e as (t, v). destruct s as [|(t1, v1) s]; cbn; tauto. Qed.

Lemma inc_head t v s : increasing ((t, v) :: s) -> Forall (fun e => t < fst e) s.
Proof.
  revert t v. induction s as [|(t1, v1) s IH]; intros t v H; constructor.
  - cbn in *. lia.
  - destruct H as (H1 & H2). apply IH in H2. eapply Forall_impl; [|exact H2]. intros a. cbn. lia.
Qed.

Lemma inc_app s x : increasing (s ++ [x]) <-> increasing s /\ Forall (fun e => fst e < fst x) s.
Proof.
  destruct x as (t, v). induction s as [|(t1, v1) s IH].
  - cbn. split; auto.
  - split.
    + intros H. pose proof (inc_head _ _ _ H) as HH. apply inc_tail in H as H'. apply IH in H'. split.
      * destruct s as [|(t2, v2) s]; cbn; auto. cbn in H. tauto.
      * constructor; [|tauto]. apply Forall_app in HH. destruct HH as (_ & HH). inversion HH; auto.
    + intros (H1 & H2). inversion H2 as [|? ? H3 H4]; subst. apply inc_tail in H1 as H1'.
      assert (increasing (s ++ [(t, v)])) as K by (apply IH; auto).
      destruct s as [|(t2, v2) s]; cbn in *; tauto.
Qed.

Lemma span_app t v m x : span ((t, v) :: m ++ [x]) = fst x - t.
Proof.
  unfold span. change (rev ((t, v) :: m ++ [x])) with (rev (((t, v) :: m) ++ [x])).
  rewrite rev_app_distr. cbn [rev app]. destruct x. reflexivity.
Qed.

Lemma list_end (s : list sample) : s <> [] -> exists m x, s = m ++ [x].
Proof. intros H. destruct (exists_last H) as (m & x & E). eauto. Qed.

Lemma span_nonneg s : increasing s -> 0 <= span s.
Proof.
  destruct s as [|(t, v) s]; [cbn; lia|]. intros H. destruct s as [|e s]; [cbn; lia|].
  destruct (list_end (e :: s)) as (m & x & E); [discriminate|]. rewrite E in *. rewrite span_app.
  apply inc_head in H. apply Forall_app in H. destruct H as (_ & H). inversion H; subst. lia.
Qed.

(* dropping from the front *)
Fixpoint drop_old (c : Z) (s : list sample) : list sample :=
  match s with
  | e :: t => if fst e <? c then drop_old c t else s
  | [] => []
  end.

Lemma filter_all {A} (f : A -> bool) l : Forall (fun x => f x = true) l -> filter f l = l.
Proof. induction 1 as [|x l H _ IH]; cbn; [reflexivity|]. rewrite H, IH. reflexivity. Qed.
Lemma filter_none {A} (f : A -> bool) l : Forall (fun x => f x = false) l -> filter f l = [].
Proof. induction 1 as [|x l H _ IH]; cbn; [reflexivity|]. rewrite H, IH. reflexivity. Qed.

Lemma drop_old_filter c s : increasing s -> drop_old c s = filter (fun e => c <=? fst e) s.
Proof.
  induction s as [|(t, v) s IH]; intros H; [reflexivity|]. cbn [drop_old filter fst].
  destruct (t <? c) eqn:E.
  - replace (c <=? t) with false by lia. apply IH. eapply inc_tail; eauto.
  - replace (c <=? t) with true by lia. f_equal. symmetry. apply filter_all.
    apply inc_head in H. eapply Forall_impl; [|exact H]. intros a. cbn. lia.
Qed.

Lemma drop_old_suffix c s : exists p, s = p ++ drop_old c s.
Proof.
  induction s as [|e s IH]; [exists []; reflexivity|]. cbn [drop_old]. destruct (fst e <? c).
  - destruct IH as (p & IH). exists (e :: p). cbn. congruence.
  - exists []. reflexivity.
Qed.

Lemma inc_suffix p s : increasing (p ++ s) -> increasing s.
Proof. induction p as [|e p IH]; auto. intros H. apply IH. eapply inc_tail; eauto. Qed.

Lemma span_suffix p s : increasing (p ++ s) -> span s <= span (p ++ s).
Proof.
  intros H. destruct s as [|(t, v) s]; [pose proof (span_nonneg _ H); cbn; lia|].
  destruct p as [|(t0, v0) p]; [cbn [app]; lia|].
  cbn [app] in *. destruct (list_end ((t, v) :: s)) as (m & x & E); [discriminate|].
  replace (p ++ (t, v) :: s) with ((p ++ m) ++ [x]) by (rewrite E, app_assoc; reflexivity).
  rewrite span_app. pose proof (inc_head _ _ _ H) as HH. apply Forall_app in HH. destruct HH as (_ & HH).
  inversion HH; subst. cbn in H2. destruct m as [|(t2, v2) m]; cbn [app] in E; inversion E; subst.
  - cbn [span rev app fst]. lia.
  - rewrite span_app. lia.
Qed.

(* ---------------- flush ---------------- *)

Lemma layout_tail N f l ent e s : layout N f l ent (e :: s) -> s <> [] ->
  layout N (if f + 1 <? N then f + 1 else 0) l ent s.
Proof.
  intros [(H & _)|(_ & Hf & Hl & Hlast & Hc)] Hs; [discriminate|]. right.
  rewrite len_cons in *. apply RingProofs.len_pos in Hs as Hs'.
  split; auto. split; [destruct (f + 1 <? N) eqn:E; lia|]. split; [lia|].
  assert (forall i, 0 <= i < N - 1 -> at_ N (if f + 1 <? N then f + 1 else 0) i = at_ N f (i + 1)) as K.
  { intros i Hi. unfold RingProofs.at_. destruct (f + 1 <? N) eqn:E;
    match goal with |- (if ?c then _ else _) = (if ?c2 then _ else _) => destruct c eqn:E1; destruct c2 eqn:E2 end; lia. }
  split; [rewrite K by lia; rewrite Hlast; f_equal; lia|].
  intros i x Hi Hx. pose proof (RingProofs.nth_error_bound _ _ _ Hi Hx). rewrite K by lia.
  apply Hc; [lia|]. replace (Z.to_nat (i + 1)) with (S (Z.to_nat i)) by lia. exact Hx.
Qed.

Lemma layout_first N f l ent e s : layout N f l ent (e :: s) -> rd ent f = Ok e.
Proof.
  intros [(H & _)|(_ & Hf & Hl & Hlast & Hc)]; [discriminate|].
  specialize (Hc 0 e ltac:(lia) eq_refl). unfold RingProofs.at_ in Hc.
  replace (f + 0 <? N) with true in Hc by lia. rewrite Z.add_0_r in Hc. exact Hc.
Qed.

Lemma layout_last N f l ent s e : layout N f l ent (s ++ [e]) -> rd ent l = Ok e /\ 0 <= l < N.
Proof.
  intros [(H & _)|(_ & Hf & Hl & Hlast & Hc)]; [destruct s; discriminate|].
  rewrite len_app in *. change (len [e]) with 1 in *. pose proof (len_nonneg s).
  replace (len s + 1 - 1) with (len s) in Hlast by lia. subst l.
  split; [|apply at_range; lia]. apply Hc; [lia|].
  rewrite nth_error_app2 by (unfold len; lia).
  replace (Z.to_nat (len s) - length s)%nat with O by (unfold len; lia). reflexivity.
Qed.

Lemma flush_loop_spec d c : forall s fuel h, 0 < max_size h < 2^31 ->
  layout (max_size h) (first h) (last h) (entry h) s -> (length s <= fuel)%nat ->
  (exists m x, s = m ++ [x] /\ c <= fst x) ->
  exists f, flush_loop fuel d h c = Ok (set_fl h f (last h)) /\
    layout (max_size h) f (last h) (entry h) (drop_old c s).
Proof.
  induction s as [|e s IH]; intros fuel h HN Lay Hfuel (m & x & E & Hx); [destruct m; discriminate|].
  destruct fuel as [|fuel]; [cbn in Hfuel; lia|]. cbn [flush_loop drop_old].
  rewrite (layout_first _ _ _ _ _ _ Lay). cbn [bind].
  destruct (fst e <? c) eqn:Ec.
  - assert (s <> []) as Hs.
    { intros ->. destruct m as [|? m]; [inversion E; subst; lia|destruct m; discriminate]. }
    assert (0 <= first h < max_size h) as Hf by (destruct Lay as [(? & _)|(_ & ? & _)]; [discriminate|auto]).
    rewrite bind_assoc. rewrite next_ok by lia. cbn [bind].
    pose proof (layout_tail _ _ _ _ _ _ Lay Hs) as Lay'.
    destruct (IH fuel (set_fl h (if first h + 1 <? max_size h then first h + 1 else 0) (last h))) as (f & E1 & E2); simp; auto.
    + cbn in Hfuel. lia.
    + destruct m as [|e' m]; [inversion E; subst; congruence|]. inversion E; subst. eauto.
    + exists f. split; [exact E1|exact E2].
  - exists (first h). split; [destruct h; reflexivity|exact Lay].
Qed.

Lemma len_length {A} (l : list A) : Z.to_nat (len l) = length l.
Proof. unfold len. lia. Qed.

Lemma recent_suffix N W h s now : rep N W h s -> exists p, s = p ++ recent W now s.
Proof.
  intros R. unfold recent. rewrite <- drop_old_filter by apply (rp_inc _ _ _ _ R). apply drop_old_suffix.
Qed.

Lemma rep_suffix N W h p s f l : rep N W h (p ++ s) -> layout N f l (entry h) s -> rep N W (set_fl h f l) s.
Proof.
  intros [R1 R2 R3 R4 R5 R6 R7 R8 R9 R10] Lay. constructor; simp; auto.
  - eapply inc_suffix; eauto.
  - apply Forall_app in R8. tauto.
  - apply Forall_app in R9. tauto.
  - pose proof (span_suffix p s R7). lia.
Qed.

Lemma rep_empty N W h s : rep N W h s -> rep N W (set_fl h (-1) (-1)) [].
Proof.
  intros [R1 R2 R3 R4 R5 R6 R7 R8 R9 R10]. constructor; simp; auto.
  all: match goal with
    | |- layout _ _ _ _ _ => left; auto | |- increasing _ => exact I | |- timed _ => constructor
    | |- valued _ => constructor | |- span _ <= _ => cbn; lia end.
Qed.

Lemma flush_spec N W h s now d : rep N W h s -> s <> [] -> 0 <= now < 2^63 ->
  exists b h', flush d h now = Ok (b, h') /\ rep N W h' (recent W now s) /\
    (b = false <-> recent W now s = []).
Proof.
  intros R Hs Hnow. pose proof R as [R1 R2 R3 R4 R5 R6 R7 R8 R9 R10].
  unfold flush. rewrite arith64_ok by lia. cbn [bind].
  destruct (list_end s Hs) as (m & x & E). rewrite R1 in *.
  pose proof R6 as Lay. rewrite E in Lay. apply layout_last in Lay. destruct Lay as (Hl & Hlr).
  rewrite Hl. cbn [bind]. destruct (fst x >=? now - max_interval h) eqn:Ec.
  - destruct (flush_loop_spec d (now - max_interval h) s (S (Z.to_nat N)) h) as (f & E1 & E2).
    + lia.
    + rewrite R1. exact R6.
    + destruct R6 as [(? & _)|(_ & _ & ? & _)]; [congruence|]. unfold len in *. lia.
    + exists m, x. split; auto. lia.
    + rewrite E1. cbn [bind]. eexists true, _. split; [reflexivity|].
      rewrite R3 in *. rewrite R1 in E2. rewrite drop_old_filter in E2 by auto. fold (recent W now s) in E2.
      destruct (recent_suffix N W h s now R) as (p & Ep). split.
      * apply (rep_suffix N W h p); auto. rewrite <- Ep. exact R.
      * split; [discriminate|]. intros K. exfalso.
        assert (In x (recent W now s)) as Hin.
        { unfold recent. apply filter_In. split; [rewrite E; apply in_or_app; right; left; reflexivity|]. lia. }
        rewrite K in Hin. destruct Hin.
  - eexists false, _. split; [reflexivity|].
    assert (recent W now s = []) as K.
    { unfold recent. apply filter_none. rewrite E in *. apply Forall_app. rewrite inc_app in R7. split.
      - destruct R7 as (_ & R7). eapply Forall_impl; [|exact R7]. intros a Ha. cbn in *. lia.
      - constructor; auto. lia. }
    rewrite K. split; [|split; auto]. eapply rep_empty; eauto.
Qed.

Lemma last_nonneg N W h s : rep N W h s -> s <> [] -> 0 <= last h < N.
Proof.
  intros R Hs. destruct (list_end s Hs) as (m & x & E). pose proof (rp_lay _ _ _ _ R) as Lay. rewrite E in Lay.
  apply layout_last in Lay. tauto.
Qed.
Lemma last_neg N W h : rep N W h [] -> first h = -1 /\ last h = -1.
Proof. intros R. destruct (rp_lay _ _ _ _ R) as [(_ & ? & ?)|(? & _)]; [auto|congruence]. Qed.

(* ---------------- size, interval ---------------- *)

Lemma arith_two d a b c : (d = Wrap \/ -2^31 <= a + b < 2^31) -> -2^31 <= a + b - c < 2^31 ->
  (do x <- arith32 d (a + b); arith32 d (x - c)) = Ok (a + b - c).
Proof.
  intros [->|H] H2.
  - cbn [arith32 bind]. f_equal. unfold s32. lia.
  - rewrite arith_ok by lia. cbn [bind]. apply arith_ok. lia.
Qed.

Lemma size_spec N W h s now d : rep N W h s -> 0 <= now < 2^63 -> (d = Wrap \/ N <= 2^30) ->
  exists h', size d h now = Ok (len (recent W now s), h') /\ rep N W h' (recent W now s).
Proof.
  intros R Hnow HN. unfold size. destruct s as [|e0 s0] eqn:Es.
  - destruct (last_neg _ _ _ R) as (_ & ->). replace (-1 >=? 0) with false by lia. eauto.
  - rewrite <- Es in *. assert (s <> []) as Hs by congruence. pose proof (last_nonneg _ _ _ _ R Hs).
    replace (last h >=? 0) with true by lia.
    destruct (flush_spec N W h s now d R Hs Hnow) as (b & h' & E & R' & Hb). rewrite E. cbn [bind].
    destruct b.
    + assert (recent W now s <> []) as Hne by (intros K; apply Hb in K; discriminate).
      pose proof (rp_lay _ _ _ _ R') as Lay. pose proof (rp_N _ _ _ _ R') as HN'. pose proof (rp_Nr _ _ _ _ R').
      destruct Lay as [(? & _)|(_ & Hf & Hl & Hlast & _)]; [congruence|]. apply RingProofs.len_pos in Hne.
      rewrite HN' in *. set (n := len (recent W now s)) in *.
      assert (u32 n = n) as U by (unfold u32; rewrite Z.mod_small; lia).
      destruct (first h' >? last h') eqn:E1.
      * assert (N + last h' - first h' = n - 1) as K by (unfold RingProofs.at_ in Hlast; destruct (first h' + (n - 1) <? N) eqn:E2; lia).
        rewrite bind_assoc. rewrite arith_two; [|destruct HN; [left; auto|right; lia]|lia]. cbn [bind].
        rewrite K. rewrite arith_ok by lia. cbn [bind]. replace (n - 1 + 1) with n by lia. rewrite U. eauto.
      * assert (last h' - first h' = n - 1) as K by (unfold RingProofs.at_ in Hlast; destruct (first h' + (n - 1) <? N) eqn:E2; lia).
        rewrite K, arith_ok by lia. cbn [bind]. rewrite arith_ok by lia. cbn [bind].
        replace (n - 1 + 1) with n by lia. rewrite U. eauto.
    + replace (recent W now s) with (@nil sample) in * by (symmetry; apply Hb; reflexivity). eauto.
Qed.

Lemma interval_spec N W h s now d : rep N W h s -> 0 <= now < 2^63 ->
  exists x h', interval d h now = Ok (x, h') /\ rep N W h' (recent W now s) /\
    match recent W now s with [] => x = 0 | (t, _) :: _ => x = now - t end.
Proof.
  intros R Hnow. unfold interval. destruct s as [|e0 s0] eqn:Es.
  - destruct (last_neg _ _ _ R) as (_ & ->). replace (-1 >=? 0) with false by lia. eexists _, _. split; [reflexivity|]. cbn. auto.
  - rewrite <- Es in *. assert (s <> []) as Hs by congruence. pose proof (last_nonneg _ _ _ _ R Hs).
    replace (last h >=? 0) with true by lia.
    destruct (flush_spec N W h s now d R Hs Hnow) as (b & h' & E & R' & Hb). rewrite E. cbn [bind].
    destruct b.
    + destruct (recent W now s) as [|(t, v) r] eqn:Er; [destruct Hb as (_ & Hb); discriminate (Hb eq_refl)|].
      pose proof (rp_lay _ _ _ _ R') as Lay. rewrite (layout_first _ _ _ _ _ _ Lay). cbn [bind fst].
      pose proof (rp_time _ _ _ _ R') as T. inversion T; subst. cbn [fst] in *.
      rewrite arith64_ok by lia. cbn [bind]. eauto 6.
    + replace (recent W now s) with (@nil sample) in * by (symmetry; apply Hb; reflexivity).
      eexists _, _. split; [reflexivity|]. auto.
Qed.

(* ---------------- the average ---------------- *)

(* the loop of median_at over a list *)
Fixpoint acc (d : dialect) (r : list sample) (t v dt area : Z) : res (Z * Z) :=
  match r with
  | [] => Ok (dt, area)
  | (t1, v1) :: r =>
      do y <- arith32 d (v + v1);
      do z <- arith64 d ((t1 - t) * y);
      do area <- arith64 d (area + Z.quot z 2);
      acc d r t1 v1 (dt + (t1 - t)) area
  end.

Lemma median_loop_acc d h N : max_size h = N -> 0 < N < 2^31 -> 0 <= first h < N -> forall r i fuel t v dt area,
  0 <= i -> i + len r < N -> last h = at_ N (first h) (i + len r) ->
  (forall j x, 0 <= j -> nth_error r (Z.to_nat j) = Some x -> rd (entry h) (at_ N (first h) (i + 1 + j)) = Ok x) ->
  (length r <= fuel)%nat -> increasing ((t, v) :: r) -> timed ((t, v) :: r) -> 0 <= dt <= t ->
  median_loop fuel d h (at_ N (first h) i) v t dt area = acc d r t v dt area.
Proof.
  intros HN HNr Hf. induction r as [|(t1, v1) r IH]; intros i fuel t v dt area Hi Hn Hl Hc Hfu Inc T Hdt.
  - change (len []) with 0 in *. rewrite Z.add_0_r in Hl. cbn [acc].
    destruct fuel; cbn [median_loop]; rewrite Hl, Z.eqb_refl; reflexivity.
  - destruct fuel as [|fuel]; [cbn in Hfu; lia|]. cbn [median_loop acc]. rewrite len_cons in *. pose proof (len_nonneg r).
    assert (at_ N (first h) i =? last h = false) as ->.
    { apply Z.eqb_neq. intros K. rewrite Hl in K. apply at_inj in K; lia. }
    rewrite HN. rewrite bind_assoc. rewrite next_ok by (auto; apply at_range; lia). cbn [bind].
    rewrite at_next by lia. rewrite <- (Z.add_0_r (i + 1)) at 1. rewrite (Hc 0 (t1, v1) ltac:(lia) eq_refl). cbn [bind fst snd].
    inversion T as [|? ? T1 T2]; subst. inversion T2 as [|? ? T3 T4]; subst. destruct Inc as (Inc1 & Inc2). cbn [fst] in *.
    rewrite arith64_ok by lia. cbn [bind]. rewrite arith64_ok by lia. cbn [bind].
    destruct (arith32 d (v + v1)) as [y|]; [cbn [bind]|reflexivity].
    destruct (arith64 d ((t1 - t) * y)) as [z|]; [cbn [bind]|reflexivity].
    destruct (arith64 d (area + Z.quot z 2)) as [ar|]; [cbn [bind]|reflexivity].
    apply IH; auto; try lia.
    + rewrite Hl. f_equal. lia.
    + intros j x Hj Hx. replace (i + 1 + 1 + j) with (i + 1 + (j + 1)) by lia. apply Hc; [lia|].
      replace (Z.to_nat (j + 1)) with (S (Z.to_nat j)) by lia. exact Hx.
    + cbn in Hfu. lia.
Qed.

Lemma acc_any d : forall r t v dt area, (exists dt' a, acc d r t v dt area = Ok (dt', a)) \/ ovf d (acc d r t v dt area).
Proof.
  induction r as [|(t1, v1) r IH]; intros t v dt area; cbn [acc]; eauto.
  destruct (arith32_any d (v + v1)) as [(y & E)|(? & E)]; rewrite E; cbn [bind]; [|right; split; auto].
  destruct (arith64_any d ((t1 - t) * y)) as [(z & E2)|(? & E2)]; rewrite E2; cbn [bind]; [|right; split; auto].
  destruct (arith64_any d (area + Z.quot z 2)) as [(a & E3)|(? & E3)]; rewrite E3; cbn [bind]; [|right; split; auto].
  apply IH.
Qed.

Lemma acc_dt d : forall r t v dt area dt' a, acc d r t v dt area = Ok (dt', a) -> dt' = dt + span ((t, v) :: r).
Proof.
  induction r as [|(t1, v1) r IH]; intros t v dt area dt' a H; cbn [acc] in H.
  - inversion H; subst. cbn. lia.
  - destruct (arith32 d (v + v1)) as [y|]; [cbn [bind] in H|discriminate].
    destruct (arith64 d ((t1 - t) * y)) as [z|]; [cbn [bind] in H|discriminate].
    destruct (arith64 d (area + Z.quot z 2)) as [ar|]; [cbn [bind] in H|discriminate].
    apply IH in H. rewrite H.
    destruct r as [|e r]; [cbn; lia|]. destruct (list_end (e :: r)) as (m & x & E); [discriminate|].
    rewrite E. rewrite span_app. replace ((t1, v1) :: m ++ [x]) with (((t1, v1) :: m) ++ [x]) by reflexivity.
    rewrite span_app. lia.
Qed.

Definition between (lo hi : Z) (s : list sample) : Prop := Forall (fun e => lo <= snd e <= hi) s.

Lemma acc_mild d lo hi B W : -B <= lo -> hi <= B -> 2 * B < 2^31 -> 2 * B * W < 2^63 -> 0 <= B -> 0 < W < 2^63 ->
  forall r t v dt area k, between lo hi ((t, v) :: r) -> increasing ((t, v) :: r) ->
  0 <= dt -> dt + span ((t, v) :: r) <= W -> lo * dt <= area <= hi * dt -> 0 <= k <= dt ->
  exists a, acc d r t v dt area = Ok (dt + span ((t, v) :: r), a) /\
    lo * (dt + span ((t, v) :: r)) <= a <= hi * (dt + span ((t, v) :: r)) /\
    Z.abs (2 * (a - area) - area2 ((t, v) :: r)) <= len r.
Proof.
  intros HB1 HB2 HB3 HB4 HB5 HW. induction r as [|(t1, v1) r IH]; intros t v dt area k Bt Inc Hdt Hsp Ha Hk.
  - exists area. cbn [acc]. cbn [span rev app] in *. split; [f_equal; f_equal; lia|]. split.
    + replace (dt + (t - t)) with dt by lia. lia.
    + cbn [area2]. change (len []) with 0. lia.
  - cbn [acc]. inversion Bt as [|? ? Bt1 Bt2]; subst. inversion Bt2 as [|? ? Bt3 Bt4]; subst. cbn [snd] in *.
    destruct Inc as (Inc1 & Inc2). pose proof (span_nonneg _ Inc2) as Hsp0.
    assert (span ((t, v) :: (t1, v1) :: r) = (t1 - t) + span ((t1, v1) :: r)) as Esp.
    { destruct r as [|e r]; [cbn; lia|]. destruct (list_end (e :: r)) as (m & x & E); [discriminate|].
      rewrite E. rewrite span_app. replace ((t1, v1) :: m ++ [x]) with (((t1, v1) :: m) ++ [x]) by reflexivity.
      rewrite span_app. lia. }
    rewrite Esp in *. set (dx := t1 - t) in *. assert (0 < dx <= W) by lia.
    rewrite arith_ok by lia. cbn [bind].
    assert (lo * dx * 2 <= dx * (v + v1) <= hi * dx * 2) as P1 by nia.
    assert (-2^63 <= dx * (v + v1) < 2^63) as P2 by nia.
    rewrite arith64_ok by exact P2. cbn [bind].
    assert (lo * dx <= Z.quot (dx * (v + v1)) 2 <= hi * dx) as P3.
    { pose proof (Z.quot_rem' (dx * (v + v1)) 2) as QR. pose proof (Z.rem_bound_abs (dx * (v + v1)) 2 ltac:(lia)).
      set (q := Z.quot (dx * (v + v1)) 2) in *. set (rm := Z.rem (dx * (v + v1)) 2) in *. lia. }
    assert (Z.abs (2 * Z.quot (dx * (v + v1)) 2 - dx * (v + v1)) <= 1) as P4.
    { pose proof (Z.quot_rem' (dx * (v + v1)) 2) as QR. pose proof (Z.rem_bound_abs (dx * (v + v1)) 2 ltac:(lia)).
      set (q := Z.quot (dx * (v + v1)) 2) in *. set (rm := Z.rem (dx * (v + v1)) 2) in *. lia. }
    set (q := Z.quot (dx * (v + v1)) 2) in *.
    assert (lo * (dt + dx) <= area + q <= hi * (dt + dx)) as P5 by nia.
    rewrite arith64_ok by nia. cbn [bind].
    destruct (IH t1 v1 (dt + dx) (area + q) 0) as (a & E1 & E2 & E3); auto; try lia.
    exists a. rewrite E1. split; [f_equal; f_equal; lia|]. split.
    + replace (dt + (dx + span ((t1, v1) :: r))) with (dt + dx + span ((t1, v1) :: r)) by lia. exact E2.
    + rewrite len_cons. cbn [area2]. fold dx. change (match r with [] => 0 | (t2, v2) :: _ => (t2 - t1) * (v1 + v2) + area2 r end) with (area2 ((t1, v1) :: r)). lia.
Qed.

Lemma len_le_span t v r : increasing ((t, v) :: r) -> len r <= span ((t, v) :: r).
Proof.
  revert t v. induction r as [|(t1, v1) r IH]; intros t v Inc; [cbn; lia|].
  destruct Inc as (I1 & I2). specialize (IH _ _ I2). rewrite len_cons.
  destruct r as [|e r]; [cbn in *; lia|]. destruct (list_end (e :: r)) as (m & x & E); [discriminate|].
  rewrite E in *. rewrite span_app in *. replace ((t1, v1) :: m ++ [x]) with (((t1, v1) :: m) ++ [x]) by reflexivity.
  rewrite span_app. lia.
Qed.

(* smallest and largest value *)
Lemma extremes s : s <> [] -> exists lo hi, between lo hi s /\ (exists e, In e s /\ snd e = lo) /\ (exists e, In e s /\ snd e = hi).
Proof.
  induction s as [|e s IH]; [congruence|]. intros _. destruct s as [|e2 s].
  - exists (snd e), (snd e). split; [constructor; [lia|constructor]|]. split; exists e; split; auto; left; auto.
  - destruct IH as (lo & hi & B & (a & A1 & A2) & (b & B1 & B2)); [discriminate|].
    exists (Z.min (snd e) lo), (Z.max (snd e) hi). split; [|split].
    + constructor; [lia|]. eapply Forall_impl; [|exact B]. cbn. intros; lia.
    + destruct (Z.le_gt_cases (snd e) lo); [exists e|exists a]; (split; [cbn; auto|lia]).
    + destruct (Z.le_gt_cases hi (snd e)); [exists e|exists b]; (split; [cbn; auto|lia]).
Qed.

Lemma median_at_spec N W h s d : rep N W h s -> s <> [] ->
  ((exists z, median_at d h = Ok z) \/ ovf d (median_at d h)) /\
  forall B, 2 * B < 2^31 -> 2 * B * W < 2^63 -> mild_by B s -> exists z, median_at d h = Ok z /\ average s z.
Proof.
  intros R Hs. pose proof R as [R1 R2 R3 R4 R5 R6 R7 R8 R9 R10].
  destruct s as [|(t, v) r]; [congruence|]. unfold median_at.
  pose proof (layout_first _ _ _ _ _ _ R6) as Hfst.
  destruct R6 as [(? & _)|(_ & Hf & Hl & Hlast & Hc)]; [discriminate|]. rewrite len_cons in *. pose proof (len_nonneg r).
  replace (1 + len r - 1) with (len r) in Hlast by lia.
  destruct r as [|e r0] eqn:Er.
  - change (len []) with 0 in *. assert (last h = first h) as El.
    { rewrite Hlast. unfold RingProofs.at_. replace (first h + 0 <? N) with true by lia. lia. }
    rewrite El, Z.eqb_refl, Hfst. cbn [bind snd]. split; [left; eauto|]. intros B _ _ _. exists v. split; auto.
    split; [exists (t, v); cbn; split; [auto|lia]|]. split; [exists (t, v); cbn; split; [auto|lia]|].
    cbn [span rev app area2]. rewrite Z.sub_diag. lia.
  - rewrite <- Er in *. assert (1 <= len r) as Hr by (apply RingProofs.len_pos; congruence).
    assert (first h =? last h = false) as ->.
    { apply Z.eqb_neq. intros K. rewrite Hlast in K. assert (first h = at_ N (first h) 0) as K0.
      { unfold RingProofs.at_. replace (first h + 0 <? N) with true by lia. lia. }
      rewrite K0 in K at 1. apply at_inj in K; lia. }
    rewrite Hfst. cbn [bind fst snd].
    assert (median_loop (Z.to_nat (max_size h)) d h (first h) v t 0 0 = acc d r t v 0 0) as ->.
    { assert (first h = at_ N (first h) 0) as K0.
      { unfold RingProofs.at_. replace (first h + 0 <? N) with true by lia. lia. }
      rewrite K0 at 1. apply (median_loop_acc d h N R1 R2 Hf); auto; try lia.
      - intros j x Hj Hx. apply Hc; [lia|]. replace (Z.to_nat (0 + 1 + j)) with (S (Z.to_nat j)) by lia. exact Hx.
      - unfold len in *. lia.
      - inversion R8; subst. cbn in *. lia. }
    pose proof (len_le_span _ _ _ R7) as Hsp.
    split.
    + destruct (acc_any d r t v 0 0) as [(dt & a & E)|(Hd & E)]; rewrite E; cbn [bind]; [|right; split; auto].
      apply acc_dt in E. replace (dt =? 0) with false by lia.
      destruct (arith64_any d (Z.quot a dt)) as [(y & E2)|(? & E2)]; rewrite E2; cbn [bind]; [left; eauto|right; split; auto].
    + intros B HB1 HB2 M. destruct (extremes ((t, v) :: r)) as (lo & hi & Bt & (ea & A1 & A2) & (eb & B1 & B2)); [discriminate|].
      assert (-B <= lo /\ hi <= B) as (K1 & K2).
      { unfold mild_by in M. rewrite Forall_forall in M. pose proof (M _ A1). pose proof (M _ B1). lia. }
      assert (lo <= hi) by (inversion Bt; subst; lia).
      destruct (acc_mild d lo hi B W K1 K2 HB1 HB2 ltac:(lia) R4 r t v 0 0 0 Bt R7) as (a & E1 & E2 & E3); try lia.
      rewrite E1. cbn [bind]. replace (0 + span ((t, v) :: r)) with (span ((t, v) :: r)) in * by lia.
      set (dt := span ((t, v) :: r)) in *. replace (dt =? 0) with false by lia.
      pose proof (Z.quot_rem' a dt) as QR. pose proof (Z.rem_bound_abs a dt ltac:(lia)) as RB.
      set (q := Z.quot a dt) in *. set (rm := Z.rem a dt) in *.
      assert (lo <= q <= hi) as Q by (split; nia).
      rewrite arith64_ok by lia. cbn [bind]. exists (s32 q). assert (s32 q = q) as -> by (unfold s32; rewrite Z.mod_small by lia; lia).
      split; auto. split; [exists ea; split; [auto|lia]|]. split; [exists eb; split; [auto|lia]|].
      fold dt. assert (2 * dt * q = 2 * a - 2 * rm) as -> by (clear - QR; clearbody q rm dt; nia). lia.
Qed.

(* ---------------- adding ---------------- *)

Lemma rd_upd_eq {A} (l : list A) i x : 0 <= i < len l -> rd (upd l (Z.to_nat i) x) i = Ok x.
Proof.
  intros H. apply rd_ok. split; [lia|].
  assert (Z.to_nat i < length l)%nat as Hl by (unfold len in H; lia). revert Hl.
  generalize (Z.to_nat i) as n. clear. induction l as [|y l IH]; intros n Hl; [cbn in Hl; lia|].
  destruct n; cbn; auto. apply IH. cbn in Hl. lia.
Qed.
Lemma rd_upd_ne {A} (l : list A) i j x : 0 <= i -> i <> j -> rd (upd l (Z.to_nat i) x) j = rd l j.
Proof.
  intros Hi Hne. unfold rd. rewrite len_upd. destruct ((0 <=? j) && (j <? len l)) eqn:E; [|reflexivity].
  assert (nth_error (upd l (Z.to_nat i) x) (Z.to_nat j) = nth_error l (Z.to_nat j)) as ->; [|reflexivity].
  assert (Z.to_nat i <> Z.to_nat j) as Hn by lia. revert Hn. generalize (Z.to_nat i) as a, (Z.to_nat j) as b. clear.
  revert x. induction l as [|y l IH]; intros x a b Hn; [destruct a; reflexivity|].
  destruct a, b; cbn; auto; try congruence. 
Qed.

Lemma layout_single N ent x : 0 < N -> len ent = N -> layout N 0 0 (upd ent 0 x) [x].
Proof.
  intros HN Hl. right. split; [discriminate|]. split; [lia|]. change (len [x]) with 1. split; [lia|].
  split; [unfold RingProofs.at_; replace (0 + (1 - 1) <? N) with true by lia; lia|].
  intros i y Hi Hy. pose proof (RingProofs.nth_error_bound _ _ _ Hi Hy) as Hb. change (len [x]) with 1 in Hb.
  assert (i = 0) as -> by lia. cbn in Hy. inversion Hy; subst y.
  unfold RingProofs.at_. replace (0 + 0 <? N) with true by lia. apply (rd_upd_eq ent 0). lia.
Qed.

Lemma layout_replace N f l ent s e x : len ent = N -> layout N f l ent (s ++ [e]) ->
  layout N f l (upd ent (Z.to_nat l) x) (s ++ [x]).
Proof.
  intros HN Lay. pose proof (layout_last _ _ _ _ _ _ Lay) as (_ & Hlr).
  destruct Lay as [(H & _)|(_ & Hf & Hl & Hlast & Hc)]; [destruct s; discriminate|].
  right. split; [destruct s; discriminate|]. rewrite len_app in *. change (len [e]) with 1 in *. change (len [x]) with 1.
  pose proof (len_nonneg s). split; auto. split; auto. split; auto.
  intros i y Hi Hy. pose proof (RingProofs.nth_error_bound _ _ _ Hi Hy) as Hb. rewrite len_app in Hb. change (len [x]) with 1 in Hb.
  replace (len s + 1 - 1) with (len s) in Hlast by lia.
  destruct (Z.lt_ge_cases i (len s)).
  - rewrite nth_error_app1 in Hy by (unfold len in *; lia).
    rewrite rd_upd_ne; [|lia|].
    + apply Hc; auto. rewrite nth_error_app1 by (unfold len in *; lia). auto.
    + rewrite Hlast. intros K. apply at_inj in K; lia.
  - assert (i = len s) as -> by lia. rewrite <- Hlast. rewrite rd_upd_eq by lia.
    rewrite nth_error_app2 in Hy by (unfold len; lia).
    replace (Z.to_nat (len s) - length s)%nat with O in Hy by (unfold len; lia). cbn in Hy. congruence.
Qed.

Lemma layout_append N f l ent s x : len ent = N -> layout N f l ent s -> s <> [] -> len s < N ->
  let l' := if l + 1 <? N then l + 1 else 0 in
  0 <= l' < N /\ l' <> f /\ layout N f l' (upd ent (Z.to_nat l') x) (s ++ [x]).
Proof.
  intros HN Lay Hs Hn l'. destruct Lay as [(H & _)|(_ & Hf & Hl & Hlast & Hc)]; [congruence|].
  apply RingProofs.len_pos in Hs as Hs'.
  assert (l' = at_ N f (len s)) as El.
  { unfold l'. rewrite Hlast. rewrite at_next by lia. f_equal. lia. }
  assert (0 <= l' < N) as Hl' by (rewrite El; apply at_range; lia).
  split; auto. split.
  { rewrite El. assert (f = at_ N f 0) as K by (unfold RingProofs.at_; replace (f + 0 <? N) with true by lia; lia).
    rewrite K at 2. intros K2. apply at_inj in K2; lia. }
  right. split; [destruct s; discriminate|]. rewrite len_app. change (len [x]) with 1. split; auto. split; [lia|].
  split; [rewrite El; f_equal; lia|].
  intros i y Hi Hy. pose proof (RingProofs.nth_error_bound _ _ _ Hi Hy) as Hb. rewrite len_app in Hb. change (len [x]) with 1 in Hb.
  destruct (Z.lt_ge_cases i (len s)).
  - rewrite nth_error_app1 in Hy by (unfold len in *; lia).
    rewrite rd_upd_ne; [|lia|].
    + apply Hc; auto.
    + rewrite El. intros K. apply at_inj in K; lia.
  - assert (i = len s) as -> by lia. rewrite <- El. rewrite rd_upd_eq by lia.
    rewrite nth_error_app2 in Hy by (unfold len; lia).
    replace (Z.to_nat (len s) - length s)%nat with O in Hy by (unfold len; lia). cbn in Hy. congruence.
Qed.

Lemma layout_shift N f l ent e s x : len ent = N -> layout N f l ent (e :: s) -> len (e :: s) = N ->
  let l' := if l + 1 <? N then l + 1 else 0 in
  l' = f /\ layout N (if f + 1 <? N then f + 1 else 0) l' (upd ent (Z.to_nat l') x) (s ++ [x]).
Proof.
  intros HN Lay Hn l'. destruct Lay as [(H & _)|(_ & Hf & Hl & Hlast & Hc)]; [discriminate|].
  rewrite len_cons in *. pose proof (len_nonneg s).
  assert (l' = f) as El.
  { unfold l'. rewrite Hlast. unfold RingProofs.at_.
    destruct (f + (1 + len s - 1) <? N) eqn:E1; match goal with |- context[if ?c then _ else _] => destruct c eqn:E2 end; lia. }
  split; auto. rewrite El.
  set (f' := if f + 1 <? N then f + 1 else 0).
  assert (0 <= f' < N) as Hf' by (unfold f'; destruct (f + 1 <? N) eqn:E; lia).
  assert (forall i, 0 <= i < N - 1 -> at_ N f' i = at_ N f (i + 1)) as K.
  { intros i Hi. unfold RingProofs.at_, f'. destruct (f + 1 <? N) eqn:E;
    match goal with |- (if ?c then _ else _) = (if ?c2 then _ else _) => destruct c eqn:E1; destruct c2 eqn:E2 end; lia. }
  assert (at_ N f' (N - 1) = f) as K2.
  { unfold RingProofs.at_, f'. destruct (f + 1 <? N) eqn:E;
    match goal with |- (if ?c then _ else _) = _ => destruct c eqn:E1 end; lia. }
  right. split; [destruct s; discriminate|]. rewrite len_app. change (len [x]) with 1. split; auto. split; [lia|].
  split; [replace (len s + 1 - 1) with (N - 1) by lia; auto|].
  intros i y Hi Hy. pose proof (RingProofs.nth_error_bound _ _ _ Hi Hy) as Hb. rewrite len_app in Hb. change (len [x]) with 1 in Hb.
  destruct (Z.lt_ge_cases i (len s)).
  - rewrite nth_error_app1 in Hy by (unfold len in *; lia). rewrite K by lia.
    rewrite rd_upd_ne; [|lia|].
    + apply Hc; [lia|]. replace (Z.to_nat (i + 1)) with (S (Z.to_nat i)) by lia. exact Hy.
    + assert (f = at_ N f 0) as K3 by (unfold RingProofs.at_; replace (f + 0 <? N) with true by lia; lia).
      rewrite K3 at 1. intros K4. apply at_inj in K4; lia.
  - assert (i = N - 1) as -> by lia. rewrite K2. rewrite rd_upd_eq by lia.
    rewrite nth_error_app2 in Hy by (unfold len in *; lia).
    replace (Z.to_nat (N - 1) - length s)%nat with O in Hy by (unfold len in *; lia). cbn in Hy. congruence.
Qed.

Lemma added_ne n w now v s : 0 < n -> added n w now v s <> [].
Proof.
  intros Hn. unfold added. destruct (rev (recent w now s)) as [|(t, v0) o]; [discriminate|].
  destruct (t <? now).
  - unfold newest. intros K. apply (f_equal (@length _)) in K. rewrite skipn_length, app_length in K. cbn in K.
    unfold len in K. rewrite app_length in K. cbn in K. lia.
  - destruct (rev o); discriminate.
Qed.


Lemma recent_fresh W now s : Forall (fun e => now - W <= fst e) (recent W now s).
Proof. apply Forall_forall. intros x Hx. apply filter_In in Hx. lia. Qed.

Lemma span_fresh W now v s : 0 < W -> Forall (fun e => now - W <= fst e) s -> span (s ++ [(now, v)]) <= W.
Proof.
  intros HW F. destruct s as [|(t, v0) s]; [cbn [span rev app]; lia|]. cbn [app]. rewrite span_app.
  inversion F; subst. cbn [fst] in *. lia.
Qed.

Lemma span_value s t v v' : span (s ++ [(t, v)]) = span (s ++ [(t, v')]).
Proof. destruct s as [|(t0, v0) s]; [reflexivity|]. cbn [app]. rewrite !span_app. reflexivity. Qed.

Lemma add_spec N W h s now v d : rep N W h s -> 0 <= now < 2^63 -> in_s32 v ->
  exists h', rep N W h' (added N W now v s) /\
    (add d h v now = do m <- median_at d h'; Ok (m, h')).
Proof.
  intros R Hnow Hv.
  assert (exists b h1, (if last h <? 0 then Ok (false, h) else flush d h now) = Ok (b, h1) /\
     rep N W h1 (recent W now s) /\ (b = false <-> recent W now s = [])) as (b & h1 & E & R1 & Hb).
  { destruct s as [|e0 s0] eqn:Es.
    - destruct (last_neg _ _ _ R) as (_ & ->). replace (-1 <? 0) with true by lia. exists false, h. cbn. split; [auto|]. split; [auto|]. split; auto.
    - rewrite <- Es in *. assert (s <> []) as Hs by congruence. pose proof (last_nonneg _ _ _ _ R Hs).
      replace (last h <? 0) with false by lia. apply flush_spec; auto. }
  unfold add. rewrite E. cbn [bind]. clear E R. unfold added. pose proof (recent_fresh W now s) as Fr.
  set (q := recent W now s) in *. clearbody q.
  pose proof R1 as [Q1 Q2 Q3 Q4 Q5 Q6 Q7 Q8 Q9 Q10].
  assert (forall m, span [(m, v)] <= W) as Sp1 by (intros m; cbn [span rev app]; lia).
  destruct b; cbn [negb].
  2:{ assert (q = []) as -> by (apply Hb; reflexivity). cbn [rev bind]. simp.
      rewrite wr_in by lia. cbn [bind]. eexists. split; [|reflexivity]. constructor; simp; auto; try lia.
      - rewrite len_upd. auto.
      - apply (layout_single N); auto. lia.
      - constructor; auto.
      - constructor; auto. }
  assert (q <> []) as Hq by (intros K; apply Hb in K; discriminate).
  destruct (list_end q Hq) as (m & (t, v0) & Eq). assert (rev q = (t, v0) :: rev m) as -> by (rewrite Eq, rev_app_distr; reflexivity).
  pose proof Q6 as Lay. rewrite Eq in Lay. destruct (layout_last _ _ _ _ _ _ Lay) as (Hlast & Hlr).
  rewrite Hlast. cbn [bind fst].
  pose proof Q7 as Inc. rewrite Eq in Inc. apply inc_app in Inc. destruct Inc as (Inc & Incl). cbn [fst] in Incl.
  pose proof Q8 as Ti. rewrite Eq in Ti. apply Forall_app in Ti. destruct Ti as (Ti & Til). apply Forall_inv in Til as Ht. cbn [fst] in Ht.
  pose proof Q9 as Va. rewrite Eq in Va. apply Forall_app in Va. destruct Va as (Va & _).
  rewrite rev_involutive. subst N.
  destruct (now >? t) eqn:Et.
  - replace (t <? now) with true by lia. rewrite bind_assoc. rewrite next_ok by lia. cbn [bind]. simp.
    assert (increasing (q ++ [(now, v)])) as Inc2.
    { apply inc_app. split; auto. rewrite Eq. apply Forall_app. split; [|constructor; auto; cbn; lia].
      eapply Forall_impl; [|exact Incl]. cbn. intros; lia. }
    assert (timed (q ++ [(now, v)])) as Ti2.
    { apply Forall_app. auto. }
    assert (valued (q ++ [(now, v)])) as Va2.
    { apply Forall_app. auto. }
    set (l' := if last h1 + 1 <? max_size h1 then last h1 + 1 else 0) in *.
    destruct (Z.lt_ge_cases (len q) (max_size h1)) as [Hn|Hn].
    + destruct (layout_append (max_size h1) (first h1) (last h1) (entry h1) q (now, v) Q5 Q6 Hq Hn) as (L1 & L2 & L3).
      fold l' in L1, L2, L3. replace (l' =? first h1) with false by lia. cbn [bind]. simp.
      rewrite wr_in by lia. cbn [bind]. eexists. split; [|reflexivity].
      assert (newest (max_size h1) (q ++ [(now, v)]) = q ++ [(now, v)]) as ->.
      { unfold newest. rewrite len_app. change (len [(now, v)]) with 1.
        replace (Z.to_nat (len q + 1 - max_size h1)) with O by lia. reflexivity. }
      constructor; simp; auto.
      * rewrite len_upd. auto.
      * apply span_fresh; auto. lia.
    + assert (len q = max_size h1) as Hn2 by (destruct Q6 as [(? & _)|(_ & _ & ? & _)]; [congruence|lia]).
      assert (exists e q', q = e :: q') as (e & q' & Eq') by (destruct q; [congruence|eauto]).
      rewrite Eq' in Q6, Hn2.
      destruct (layout_shift (max_size h1) (first h1) (last h1) (entry h1) e q' (now, v) Q5 Q6 Hn2) as (L1 & L3).
      fold l' in L1, L3. rewrite L1, Z.eqb_refl.
      assert (0 <= first h1 < max_size h1) as Hf by (destruct Q6 as [(? & _)|(_ & ? & _)]; [discriminate|auto]).
      rewrite bind_assoc. rewrite next_ok by lia. cbn [bind]. simp.
      rewrite wr_in by lia. cbn [bind]. eexists. split; [|reflexivity].
      assert (newest (max_size h1) (q ++ [(now, v)]) = q' ++ [(now, v)]) as ->.
      { unfold newest. rewrite Eq', len_app. change (len [(now, v)]) with 1.
        replace (Z.to_nat (len (e :: q') + 1 - max_size h1)) with 1%nat by lia. reflexivity. }
      rewrite Eq' in Inc2, Ti2, Va2, Fr. cbn [app] in *. inversion Ti2; subst. inversion Va2; subst. inversion Fr; subst.
      constructor; simp; auto.
      * rewrite len_upd. auto.
      * rewrite L1 in L3. exact L3.
      * eapply inc_tail; eauto.
      * apply span_fresh; auto. lia.
  - replace (t <? now) with false by lia.
    assert ((if now <? t then Ok (t, h1) else Ok (now, h1)) = Ok (t, h1)) as ->.
    { destruct (now <? t) eqn:E2; auto. f_equal. f_equal. lia. }
    cbn [bind]. rewrite wr_in by lia. cbn [bind]. eexists. split; [|reflexivity].
    constructor; simp; auto.
    + rewrite len_upd. auto.
    + eapply layout_replace; eauto.
    + apply inc_app. split; auto.
    + apply Forall_app. split; auto.
    + apply Forall_app. auto.
    + rewrite (span_value m t v v0), <- Eq. auto.
Qed.

(* ---------------- one call, and sequences ---------------- *)

Definition small (d : dialect) (N : Z) : Prop := d = Wrap \/ N <= 2^30.

Lemma step_spec N W h s o now d B : rep N W h s -> fair (o, now) -> small d N -> 2 * B < 2^31 -> 2 * B * W < 2^63 ->
  ovf d (step d h o now) /\ ~ mild_by B (after N W s o now) \/
  exists x h', step d h o now = Ok (x, h') /\ rep N W h' (after N W s o now) /\
    returns (mild_by B) (after N W s o now) o now x.
Proof.
  intros R (Hnow & Ho) Sm HB1 HB2. cbn [fst snd] in *. destruct o as [v|v| | |]; cbn [step after returns].
  - destruct (add_spec N W h s now v d R Hnow Ho) as (h' & R' & E). rewrite E.
    destruct (median_at_spec N W h' _ d R' (added_ne N W now v s (proj1 (rp_Nr _ _ _ _ R)))) as (M1 & M2).
    specialize (M2 B HB1 HB2).
    destruct M1 as [(z & M1)|(Hd & M1)].
    + right. exists z, h'. rewrite M1. cbn [bind]. split; auto. split; auto.
      intros M. destruct (M2 M) as (z' & E1 & E2). congruence.
    + left. rewrite M1. cbn [bind]. split; [split; auto|]. intros M. destruct (M2 M) as (z' & E1 & E2). congruence.
  - unfold median. destruct s as [|e0 s0] eqn:Es.
    + destruct (last_neg _ _ _ R) as (_ & ->). replace (-1 >=? 0) with false by lia. right. exists v, h. cbn. auto.
    + rewrite <- Es in *. assert (s <> []) as Hs by congruence. pose proof (last_nonneg _ _ _ _ R Hs).
      replace (last h >=? 0) with true by lia.
      destruct (flush_spec N W h s now d R Hs Hnow) as (b & h' & E & R' & Hb). rewrite E. cbn [bind].
      destruct (recent W now s) as [|e1 r1] eqn:Er.
      * assert (b = false) as -> by (apply Hb; reflexivity). right. exists v, h'. auto.
      * destruct b; [|assert (K : e1 :: r1 = []) by (apply Hb; reflexivity); discriminate].
        destruct (median_at_spec N W h' _ d R' ltac:(discriminate)) as (M1 & M2). specialize (M2 B HB1 HB2).
        destruct M1 as [(z & M1)|(Hd & M1)]; rewrite M1; cbn [bind].
        -- right. exists z, h'. split; auto. split; auto. intros M. destruct (M2 M) as (z' & E1 & E2). congruence.
        -- left. split; [split; auto|]. intros M. destruct (M2 M) as (z' & E1 & E2). congruence.
  - right. destruct (size_spec N W h s now d R Hnow Sm) as (h' & E & R'). eauto.
  - right. destruct (interval_spec N W h s now d R Hnow) as (x & h' & E & R' & Hx). eauto 6.
  - right. exists 0, (clear h). split; auto. split; auto. eapply rep_empty; eauto.
Qed.

Fixpoint all_after (N W : Z) (s : list sample) (ops : list (op * Z)) (P : list sample -> Prop) : Prop :=
  match ops with
  | [] => True
  | (o, now) :: t => P (after N W s o now) /\ all_after N W (after N W s o now) t P
  end.

Lemma run_spec N W B d : small d N -> 2 * B < 2^31 -> 2 * B * W < 2^63 -> forall ops h s,
  rep N W h s -> Forall fair ops ->
  ovf d (run d h ops) /\ ~ all_after N W s ops (mild_by B) \/
  exists xs h', run d h ops = Ok (xs, h') /\ rep N W h' (afters N W s ops) /\ all_return (mild_by B) N W s ops xs.
Proof.
  intros Sm HB1 HB2. induction ops as [|(o, now) ops IH]; intros h s R F.
  - right. exists [], h. cbn. auto.
  - inversion F; subst. cbn [run afters all_after all_return].
    destruct (step_spec N W h s o now d B R ltac:(auto) Sm HB1 HB2) as [((Hd & E) & M)|(x & h1 & E & R1 & Rt)]; rewrite E; cbn [bind].
    + left. split; [split; auto|]. tauto.
    + destruct (IH h1 _ R1 ltac:(auto)) as [((Hd & E2) & M)|(xs & h2 & E2 & R2 & A)]; rewrite E2; cbn [bind].
      * left. split; [split; auto|]. tauto.
      * right. exists (x :: xs), h2. auto.
Qed.

Lemma new_rep N W h : in_s32 N -> in_s64 W -> new_full N W = Some h -> rep N W h [].
Proof.
  unfold new_full, in_s32, in_s64. intros HN HW H. destruct ((N >? 0) && (W >? 0)) eqn:E; [|discriminate].
  inversion H; subst. constructor; simp; auto; try lia.
  - rewrite RingProofs.len_repeat. lia.
  - left. auto.
  - exact I.
  - constructor.
  - constructor.
  - cbn. lia.
Qed.

(* ---------------- without any assumption on values and sizes ---------------- *)

Lemma size_any N W h s now d : rep N W h s -> 0 <= now < 2^63 ->
  ovf d (size d h now) \/ exists x h', size d h now = Ok (x, h') /\ rep N W h' (recent W now s).
Proof.
  intros R Hnow. destruct d.
  2:{ right. destruct (size_spec N W h s now Wrap R Hnow (or_introl eq_refl)) as (h' & E & R'). eauto. }
  unfold size. destruct s as [|e0 s0] eqn:Es.
  - destruct (last_neg _ _ _ R) as (_ & ->). replace (-1 >=? 0) with false by lia. right. eauto.
  - rewrite <- Es in *. assert (s <> []) as Hs by congruence. pose proof (last_nonneg _ _ _ _ R Hs).
    replace (last h >=? 0) with true by lia.
    destruct (flush_spec N W h s now Strict R Hs Hnow) as (b & h' & E & R' & Hb). rewrite E. cbn [bind].
    destruct b; [|right; eauto].
    destruct (first h' >? last h').
    + destruct (arith32_any Strict (max_size h' + last h')) as [(y & E1)|(? & E1)]; rewrite E1; cbn [bind]; [|left; split; auto].
      destruct (arith32_any Strict (y - first h')) as [(z & E2)|(? & E2)]; rewrite E2; cbn [bind]; [|left; split; auto].
      destruct (arith32_any Strict (z + 1)) as [(w & E3)|(? & E3)]; rewrite E3; cbn [bind]; [right; eauto|left; split; auto].
    + destruct (arith32_any Strict (last h' - first h')) as [(y & E1)|(? & E1)]; rewrite E1; cbn [bind]; [|left; split; auto].
      destruct (arith32_any Strict (y + 1)) as [(w & E3)|(? & E3)]; rewrite E3; cbn [bind]; [right; eauto|left; split; auto].
Qed.

Lemma step_any N W h s o now d : rep N W h s -> fair (o, now) ->
  ovf d (step d h o now) \/ exists x h', step d h o now = Ok (x, h') /\ rep N W h' (after N W s o now).
Proof.
  intros R F. destruct o.
  3:{ destruct F as (Hnow & _). cbn [step after snd] in *. apply size_any; auto. }
  all: assert (0 < W) as HW by (pose proof (rp_Wr _ _ _ _ R); lia).
  - destruct F as (Hnow & Hv). cbn [step after fst snd] in *.
    destruct (add_spec N W h s now v d R Hnow Hv) as (h' & R' & E). rewrite E.
    destruct (median_at_spec N W h' _ d R' (added_ne N W now v s (proj1 (rp_Nr _ _ _ _ R)))) as ([(z & M1)|(Hd & M1)] & _);
      rewrite M1; cbn [bind]; [right; eauto|left; split; auto].
  - destruct F as (Hnow & Hv). cbn [step after fst snd] in *. unfold median. destruct s as [|e0 s0] eqn:Es.
    + destruct (last_neg _ _ _ R) as (_ & ->). replace (-1 >=? 0) with false by lia. right. exists dflt, h. cbn. auto.
    + rewrite <- Es in *. assert (s <> []) as Hs by congruence. pose proof (last_nonneg _ _ _ _ R Hs).
      replace (last h >=? 0) with true by lia.
      destruct (flush_spec N W h s now d R Hs Hnow) as (b & h' & E & R' & Hb). rewrite E. cbn [bind].
      destruct b; [|right; eauto].
      destruct (median_at_spec N W h' _ d R') as ([(z & M1)|(Hd & M1)] & _).
      { intros K. apply Hb in K. discriminate. }
      * rewrite M1; cbn [bind]. right; eauto.
      * rewrite M1; cbn [bind]. left; split; auto.
  - destruct F as (Hnow & _). cbn [step after snd] in *. right.
    destruct (interval_spec N W h s now d R Hnow) as (x & h' & E & R' & Hx). eauto.
  - right. exists 0, (clear h). split; auto. eapply rep_empty; eauto.
Qed.

Lemma run_any N W d : forall ops h s, rep N W h s -> Forall fair ops ->
  ovf d (run d h ops) \/ exists xs h', run d h ops = Ok (xs, h') /\ rep N W h' (afters N W s ops).
Proof.
  induction ops as [|(o, now) ops IH]; intros h s R F.
  - right. exists [], h. cbn. auto.
  - inversion F; subst. cbn [run afters].
    destruct (step_any N W h s o now d R ltac:(auto)) as [(Hd & E)|(x & h1 & E & R1)]; rewrite E; cbn [bind]; [left; split; auto|].
    destruct (IH h1 _ R1 ltac:(auto)) as [(Hd & E2)|(xs & h2 & E2 & R2)]; rewrite E2; cbn [bind]; [left; split; auto|].
    right. eauto.
Qed.

(* ---------------- values stay within the values added ---------------- *)

Lemma after_mild N W B s o now : mild_by B s -> match o with Add v => -B <= v <= B | _ => True end ->
  mild_by B (after N W s o now).
Proof.
  intros M Ho.
  assert (mild_by B (recent W now s)) as MR.
  { unfold mild_by, recent in *. rewrite Forall_forall in *. intros x Hx. apply filter_In in Hx. apply M. tauto. }
  destruct o; cbn [after]; auto; [|constructor].
  unfold added. destruct (rev (recent W now s)) as [|(t, v0) older] eqn:E; [constructor; auto|].
  destruct (t <? now).
  - unfold newest, mild_by in *. assert (Forall (fun e => - B <= snd e <= B) (recent W now s ++ [(now, v)])) as K.
    { apply Forall_app. split; auto. }
    rewrite <- (firstn_skipn (Z.to_nat (len (recent W now s ++ [(now, v)]) - N))) in K. apply Forall_app in K. tauto.
  - assert (recent W now s = rev older ++ [(t, v0)]) as E2.
    { rewrite <- (rev_involutive (recent W now s)), E. reflexivity. }
    rewrite E2 in MR. apply Forall_app in MR. apply Forall_app. split; [tauto|]. constructor; auto.
Qed.

Lemma all_after_mild N W B : forall ops s, mild_by B s ->
  Forall (fun p => match fst p with Add v => -B <= v <= B | _ => True end) ops -> all_after N W s ops (mild_by B).
Proof.
  induction ops as [|(o, now) ops IH]; intros s M F; [exact I|]. inversion F; subst. cbn [all_after].
  pose proof (after_mild N W B s o now M ltac:(auto)). auto.
Qed.

Lemma all_return_mild N W B : forall ops s xs, all_after N W s ops (mild_by B) -> all_return (mild_by B) N W s ops xs ->
  all_return (fun _ => True) N W s ops xs.
Proof.
  induction ops as [|(o, now) ops IH]; intros s xs A R; destruct xs as [|x xs]; cbn [all_return all_after] in *; auto.
  destruct A as (A1 & A2). destruct R as (R1 & R2). split; [|eapply IH; eauto].
  destruct o; cbn [returns] in *; auto. destruct (after N W s (Median dflt) now); auto.
Qed.

(* what the entries are *)
Lemma at_mod N f i : 0 <= f < N -> 0 <= i < N -> at_ N f i = (f + i) mod N.
Proof.
  intros. unfold RingProofs.at_. destruct (f + i <? N) eqn:E.
  - rewrite Z.mod_small; lia.
  - replace (f + i) with (f + i - N + 1 * N) by lia. rewrite Z.mod_add by lia. rewrite Z.mod_small; lia.
Qed.
