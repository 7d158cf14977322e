(* What happens to the items, told by the events; and the idle pass *)
From Verif Require Import Base IdlePoolModel IdlePoolSpec IdlePoolProofs IdlePoolInv IdlePoolStep IdlePoolSane IdlePoolCare.
From Coq Require Import Permutation.

(* ---------------- where an item is ---------------- *)
Definition held (i : nat) (tr : list event) : Prop := In i (waiting tr) \/ exists t, In i (concat (batches t tr)).
Lemma undone i tr : good tr -> added i tr -> destroyed i tr \/ held i tr.
Proof.
  induction tr as [|e tr IH]; intros G (d & kd & I); [destruct I|]. destruct G as (Lg & G).
  assert (Old : In (EAdd i d kd) tr -> destroyed i (e :: tr) \/ held i tr).
  { intros X. destruct (IH G) as [Y|Y]; [exists d, kd; auto| |auto]. left. apply destroyed_cons. auto. }
  destruct I as [-> |I]; [right; left; cbn; apply in_app_iff; cbn; auto|]. destruct (Old I) as [Y|[Y|(t & Y)]]; auto.
  - destruct e; try (right; left; exact Y).
    + right. left. cbn. apply in_app_iff. auto.
    + right. right. exists t. cbn. rewrite Nat.eqb_refl. cbn. apply in_app_iff. auto.
  - destruct e as [ | |j dt kk|u|u|u j dt kk|u|u|u w|u sid|u sid|sid|sid|sid| | | | | ]; try (right; right; exists t; exact Y).
    + right. right. exists t. cbn. destruct (Nat.eqb u t); auto. cbn. apply in_app_iff. auto.
    + right. right. exists t. cbn. destruct (Nat.eqb_spec u t) as [->|]; auto. destruct Lg as (o & Eo). rewrite Eo in *. exact Y.
    + destruct Lg as ((b & o & Eo) & _ & _). destruct (Nat.eq_dec i j) as [->|N]. { left. apply destroyed_cons. left. eauto. }
      right. right. exists t. cbn. destruct (Nat.eqb_spec u t) as [->|]; auto. rewrite Eo in *. cbn in Y. destruct Y as [Y|Y]; [congruence|auto].
Qed.

Record single (tr : list event) : Prop := {
  g_wait : NoDup (waiting tr);
  g_bat : forall t, NoDup (concat (batches t tr));
  g_wb : forall t i, In i (waiting tr) -> ~ In i (concat (batches t tr));
  g_bb : forall t u i, t <> u -> In i (concat (batches t tr)) -> ~ In i (concat (batches u tr));
  g_new : forall i, held i tr -> added i tr /\ ~ destroyed i tr }.
Lemma good_single tr : good tr -> single tr.
Proof.
  induction tr as [|e tr IH]; intros G.
  { constructor; cbn; intros; try constructor; auto. destruct H as [[]|(t & [])]. destruct H as [[]|(t & [])]. }
  destruct G as (Lg & G). destruct (IH G) as [A B C D E].
  assert (Nw : forall i, added i tr -> added i (e :: tr)) by (intros i (d & k & X); exists d, k; cbn; auto).
  assert (Other : waiting (e :: tr) = waiting tr -> (forall t, batches t (e :: tr) = batches t tr) -> (forall i, destroyed i (e :: tr) -> destroyed i tr) -> single (e :: tr)).
  { intros E1 E2 E3. constructor; intros *; rewrite ?E1, ?E2; auto; try (rewrite ?E2; eauto).
    unfold held. rewrite E1. intros X. destruct (E i) as (X1 & X2). { destruct X as [X|(t & X)]; [left; auto|]. rewrite E2 in X. right. eauto. } split; auto. }
  assert (Nd : forall i, (forall t d k, e <> EDestroy t i d k) -> destroyed i (e :: tr) -> destroyed i tr).
  { intros i X Y. apply destroyed_cons in Y. destruct Y as [(t & d & k & ->)|Y]; auto. exfalso. eapply X; eauto. }
  destruct e as [ | |j dt kk|u|u|u j dt kk|u|u|u w|u sid|u sid|sid|sid|sid| | | | | ]; try (apply Other; [reflexivity|reflexivity|intros i; apply Nd; discriminate]).
  - assert (Nj : ~ held j tr) by (intros X; destruct (E j X); auto). constructor; cbn [waiting batches]; auto.
    + apply (Permutation_NoDup (l := j :: waiting tr)); [apply Permutation_cons_append|]. constructor; auto. intros X. apply Nj. left. auto.
    + intros t i X. apply in_app_iff in X. destruct X as [X|[<-|[]]]; auto. intros X. apply Nj. right. eauto.
    + intros i X. assert (Y : held i tr \/ i = j).
      { destruct X as [X|(t & X)]; [|left; right; exists t; exact X]. cbn in X. apply in_app_iff in X. destruct X as [X|[X|[]]]; auto. left. left. auto. }
      destruct Y as [Y| ->].
      * destruct (E i Y). split; auto. intros Z0. apply H0. apply (Nd i); auto. discriminate.
      * split; [exists dt, kk; cbn; auto|]. intros X0. apply Nd in X0; [|discriminate]. apply Lg. apply destroyed_added; auto.
  - assert (Bx : forall t i, In i (concat (batches t (EBatch u :: tr))) <-> (t = u /\ In i (waiting tr)) \/ In i (concat (batches t tr))).
    { intros t i. cbn [batches]. destruct (Nat.eqb_spec u t) as [->|N]; cbn [concat]; [rewrite in_app_iff|]; intuition congruence. }
    constructor.
    + constructor.
    + intros t. cbn [batches]. destruct (Nat.eqb u t); auto. cbn [concat]. apply nodup_join; auto.
    + intros t i [].
    + intros t t' i N X Y. apply Bx in X. apply Bx in Y. destruct X as [(-> & X)|X]; destruct Y as [(-> & Y)|Y]; try congruence.
      * eapply C; eauto.
      * eapply C; eauto.
      * eapply D; eauto.
    + intros i X. destruct (E i) as (X1 & X2). { destruct X as [[]|(t & X)]. apply Bx in X. destruct X as [(_ & X)|X]; [left|right]; eauto. }
      split; auto. intros Y. apply X2. apply (Nd i); auto. discriminate.
  - destruct Lg as (o & Eo). assert (Bx : forall t, concat (batches t (EBatchEnd u :: tr)) = concat (batches t tr)).
    { intros t. cbn [batches]. destruct (Nat.eqb_spec u t) as [->|]; auto. rewrite Eo. reflexivity. }
    constructor; try (intros t; rewrite Bx; auto).
    + exact A.
    + intros t' i N. rewrite Bx. apply D. auto.
    + intros i X. destruct (E i) as (X1 & X2). { destruct X as [X|(t & X)]; [left; auto|]. rewrite Bx in X. right. eauto. }
      split; auto. intros Y. apply X2. apply (Nd i); auto. discriminate.
  - destruct Lg as ((b & o & Eo) & La & Ld). assert (Bu : NoDup (j :: concat (b :: o))). { specialize (B u). rewrite Eo in B. exact B. } inversion Bu as [|? ? Nj Bu']; subst.
    assert (Bx : forall t i, In i (concat (batches t (EDestroy u j dt kk :: tr))) <-> i <> j /\ In i (concat (batches t tr))).
    { intros t i. cbn [batches]. destruct (Nat.eqb_spec u t) as [->|N].
      - rewrite Eo. cbn. cbn in Nj. split; [|intuition congruence]. intros X. split; [intros ->; auto|auto].
      - split; [|tauto]. intros X. split; auto. intros ->. eapply (D u t j); auto. rewrite Eo. cbn. auto. }
    constructor.
    + exact A.
    + intros t. cbn [batches]. destruct (Nat.eqb_spec u t) as [->|]; auto. rewrite Eo. auto.
    + intros t i X Y. apply Bx in Y. exact (C t i X (proj2 Y)).
    + intros t t' i N X Y. apply Bx in X. apply Bx in Y. exact (D t t' i N (proj2 X) (proj2 Y)).
    + intros i X. assert (Y : held i tr /\ i <> j).
      { destruct X as [X|(t & X)]; [|apply Bx in X; split; [right; exists t; tauto|tauto]]. cbn in X. split; [left; auto|]. intros ->. apply (C u j X). rewrite Eo. cbn. auto. }
      destruct Y as (Y & N). destruct (E i Y). split; auto. intros Z0. apply H0. apply (Nd i); auto. intros t d k X0. congruence.
Qed.

(* ---------------- the order ---------------- *)
Lemma before_in i j l : before i j l -> In i l /\ In j l.
Proof. intros (a & b & c & ->). split; apply in_app_iff; right; cbn; auto. right. apply in_app_iff. cbn. auto. Qed.
Lemma ordered t i j post : forall pre, good (post ++ EBatch t :: pre) -> before i j (waiting pre) ->
  (exists b, In b (batches t (post ++ EBatch t :: pre)) /\ before i j b) \/ destroyed i (post ++ EBatch t :: pre).
Proof.
  induction post as [|e post IH]; intros pre G Bf.
  - left. exists (waiting pre). cbn. rewrite Nat.eqb_refl. cbn. auto.
  - cbn [app] in *. destruct G as (Lg & G). assert (Mon : destroyed i (post ++ EBatch t :: pre) -> destroyed i (e :: post ++ EBatch t :: pre)) by (intros; apply destroyed_cons; auto).
    destruct (IH pre G Bf) as [(b & Ib & Bb)|Y]; auto. set (tr := post ++ EBatch t :: pre) in *.
    destruct e as [ | |x dt kk|u|u|u x dt kk|u|u|u w|u sid|u sid|sid|sid|sid| | | | | ]; try (left; exists b; split; [exact Ib|exact Bb]).
    + left. exists b. split; auto. cbn. destruct (Nat.eqb u t); cbn; auto.
    + left. exists b. split; auto. cbn. destruct (Nat.eqb_spec u t) as [->|]; auto. destruct Lg as (o & Eo). rewrite Eo in *. destruct Ib as [<-|Ib]; auto. destruct Bb as (a & b0 & c & X). destruct a; discriminate.
    + destruct Lg as ((b' & o & Eo) & _). cbn [batches]. destruct (Nat.eqb_spec u t) as [->|]; [|left; eauto]. rewrite Eo in *. destruct Ib as [<-|Ib]; [|left; exists b; cbn; auto].
      destruct Bb as (a & b0 & c & X). destruct a as [|y a]; injection X as -> ->.
      * right. apply destroyed_cons. left. eauto.
      * left. exists (a ++ i :: b0 ++ j :: c). cbn. split; auto. exists a, b0, c. auto.
Qed.

(* ---------------- the pass ---------------- *)
Definition fw (f : frame) : nat :=
  match f with
  | FLoop WFinal => 3 | FBatch _ _ WFinal => 4 | FCb _ _ WFinal | FSelf _ _ WFinal => 5 | FRemove _ WFinal => 0 | FRemoved WFinal => 0
  | FLoop _ => 9 | FBatch _ _ _ => 10 | FCb _ _ _ | FSelf _ _ _ => 11 | FRemove _ _ => 8 | FRemoved _ => 4 | FOther _ => 4
  end.
Definition stack0 (s : state) : list frame := nth 0 (s_stacks s) [].
Definition work (s : state) : nat :=
  8 * length (waiting (s_trace s)) + 6 * length (concat (batches 0 (s_trace s))) + list_sum (map fw (stack0 s)).
Definition goes_on (f : frame) : nat * action := (0%nat, match f with FCb _ _ _ => AReturn | _ => AStep end).
Definition idle0 (s : state) : Prop := match s_pool s with Some q => p_idle q = 0%nat | None => True end.
Record after (s s' : state) : Prop := {
  a_idle : idle0 s -> idle0 s';
  a_oth : forall u, u <> 0%nat -> nth_error (s_stacks s') u = nth_error (s_stacks s) u;
  a_owned : owned (s_trace s') = owned (s_trace s);
  a_tr : exists evs, s_trace s' = evs ++ s_trace s /\ forall i d k, ~ In (EAdd i d k) evs }.

Lemma after_refl s : after s s.
Proof. constructor; auto. exists []. auto. Qed.
Lemma after_trans s1 s2 s3 : after s1 s2 -> after s2 s3 -> after s1 s3.
Proof.
  intros [A1 A2 A3 (e1 & A4 & A5)] [B1 B2 B3 (e2 & B4 & B5)]. constructor; auto.
  - intros u N. rewrite B2, A2; auto.
  - congruence.
  - exists (e2 ++ e1). split; [rewrite B4, A4, app_assoc; auto|]. intros i d k I. apply in_app_iff in I. destruct I; [eapply B5|eapply A5]; eauto.
Qed.

(* what gutil_idle_pool_unref does to it *)
Lemma drop_work h oq v srcs n k0 ot tr k s' : drop (State h oq v srcs n (k0 :: ot) tr) 0 k = Ok s' ->
  (work s' <= 8 * length (waiting tr) + 6 * length (concat (batches 0 tr)) + list_sum (map fw k) + 3)%nat /\ after (State h oq v srcs n (k0 :: ot) tr) s'.
Proof.
  unfold drop. flat. destruct oq as [q|]; flat; [|discriminate]. destruct (p_refs q - 1 =? 0); [destruct (p_shared q)|]; intros E; injection E as <-; (split; [unfold work, stack0; flat; cbn [upd nth map list_sum fold_right fw waiting batches]; unfold list_sum; lia|]).
  - constructor; flat; auto; [intros [|u] N; [congruence|reflexivity]|]. exists [EZero]. cbn. split; auto. intros i d kk [X|[]]. discriminate.
  - constructor; flat; auto; [intros [|u] N; [congruence|reflexivity]|]. exists [EZero]. cbn. split; auto. intros i d kk [X|[]]. discriminate.
  - constructor; flat; auto; [intros [|u] N; [congruence|reflexivity]|]. exists []. cbn. split; auto.
Qed.
Ltac aft evs := constructor; flat; [auto|intros [|?u0] ?N0; [congruence|reflexivity]|auto|exists evs; split; [reflexivity|cbn; intuition discriminate]].
Lemma end_work h oq v srcs n f k ot tr w s' : wof f = Some w -> (w <> WFinal -> 4 <= fw f)%nat -> (w = WFinal -> 3 <= fw f)%nat -> isb f = false ->
  drain_end (State h oq v srcs n ((f :: k) :: ot) tr) 0 w k = Ok s' -> (work s' < work (State h oq v srcs n ((f :: k) :: ot) tr))%nat /\ after (State h oq v srcs n ((f :: k) :: ot) tr) s'.
Proof.
  intros Wf Wt Wt' Nb E. unfold drain_end in E.
  assert (Wk : work (State h oq v srcs n ((f :: k) :: ot) tr) = (8 * length (waiting tr) + 6 * length (concat (batches 0 tr)) + (fw f + list_sum (map fw k)))%nat) by reflexivity.
  destruct w as [| |sid|].
  - injection E as <-. specialize (Wt ltac:(discriminate)). split; [rewrite Wk; unfold work, stack0; flat; cbn [upd nth waiting batches]; lia|]. aft [EDrained 0 WClient].
  - specialize (Wt ltac:(discriminate)). unfold emit in E. revert E. flat. intros E. apply drop_work in E. cbn [s_heap s_pool s_var s_srcs s_next s_stacks s_trace] in E. destruct E as (E & A). split; [cbn [waiting batches] in E; lia|]. eapply after_trans; [|exact A]. aft [EDrained 0 WDestroy].
  - specialize (Wt ltac:(discriminate)). unfold idle_end, emit, set_srcs in E. revert E. flat. intros E. apply drop_work in E. cbn [s_heap s_pool s_var s_srcs s_next s_stacks s_trace] in E. destruct E as (E & A). split; [cbn [waiting batches] in E; lia|]. eapply after_trans; [|exact A]. aft [EIdleEnd 0 sid; EDrained 0 (WIdle sid)].
  - specialize (Wt' eq_refl). cbn [s_pool emit] in E. destruct oq as [q|]; [|discriminate]. injection E as <-. split; [rewrite Wk; unfold work, stack0; flat; cbn [upd nth waiting batches]; lia|]. constructor; flat; [cbn; auto|intros [|u0] N0; [congruence|reflexivity]|auto|exists [EGone; EDrained 0 WFinal]; split; [reflexivity|cbn; intuition discriminate]].
Qed.

Lemma pass_work s s' f k : inv s -> stack0 s = f :: k -> (wof f = Some WFinal -> idle0 s) -> wof f <> None -> (wof f = Some WFinal -> finalf f = true) ->
  step s (goes_on f) = Ok s' -> (work s' < work s)%nat /\ after s s'.
Proof.
  destruct s as [h oq v srcs n ks tr]. unfold stack0. cbn [s_stacks]. intros (P & I) E0 Hi Nw Hf E. cbn in I. destruct ks as [|k0 ot]; [discriminate|]. cbn in E0. subst k0.
  unfold idle0 in Hi. cbn [s_pool] in Hi. unfold step, goes_on in E. cbn [s_stacks nth_error] in E.
  assert (Wk : work (State h oq v srcs n ((f :: k) :: ot) tr) = (8 * length (waiting tr) + 6 * length (concat (batches 0 tr)) + (fw f + list_sum (map fw k)))%nat) by reflexivity.
  destruct f as [w|items item w|items item w|items item w|id w|w|sid].
  - unfold loop in E. revert E. flat. destruct oq as [q|]; flat; [|discriminate]. pose proof (wait_first _ _ _ _ _ I) as Wf. destruct (p_first q) as [a|] eqn:Ef.
    + intros E. injection E as <-. assert (Nn : waiting tr <> []) by (intros X; apply Wf in X; discriminate). split.
      * rewrite Wk. unfold work, stack0. flat. cbn [upd nth waiting batches length Nat.eqb concat map]. rewrite app_length. destruct (waiting tr) as [|a0 l]; [congruence|]. cbn [length]. unfold list_sum. cbn [fold_right]. destruct w; cbn [fw]; lia.
      * aft [EBatch 0].
    + destruct (Nat.eqb_spec (p_idle q) 0) as [Ez|Nz].
      * intros E. eapply (end_work _ _ _ _ _ (FLoop w)); eauto; cbn; intros; destruct w; try congruence; lia.
      * intros E. injection E as <-. assert (w <> WFinal) by (intros ->; cbn in Hi; specialize (Hi eq_refl); congruence). split.
        { rewrite Wk. unfold work, stack0. flat. cbn [upd nth waiting batches map]. unfold list_sum. cbn [fold_right]. destruct w; cbn [fw]; try congruence; lia. }
        constructor; flat; [cbn; auto|intros [|u0] N0; [congruence|reflexivity]|auto|exists []; split; [reflexivity|cbn; tauto]].
  - unfold batch in E. revert E. flat. destruct item as [a|].
    + destruct (INV_destroy _ _ _ _ _ 0%nat _ _ _ _ I eq_refl) as (it & N & Hd). rewrite (get_ok _ _ _ N). flat.
      destruct (Hd _ (or_introl eq_refl)) as (P' & I'). pose proof (i_good _ _ _ _ _ I') as G. destruct G as ((Gb & _) & _). destruct Gb as (b & o & Eb).
      assert (Cb : concat (batches 0 (EDestroy 0 a (it_data it) (it_kind it) :: tr)) = b ++ concat o). { cbn [batches Nat.eqb]. rewrite Eb. reflexivity. }
      assert (Ca : length (concat (batches 0 tr)) = S (length (b ++ concat o))). { rewrite Eb. reflexivity. }
      destruct (it_kind it) eqn:Ek; intros E.
      * injection E as <-. split; [|aft [EDestroy 0 a (it_data it) KClient]]. rewrite Wk. unfold work, stack0. flat. rewrite Cb. cbn [upd nth map waiting]. unfold list_sum. cbn [fold_right]. destruct w; cbn [fw]; lia.
      * apply drop_work in E. cbn [s_heap s_pool s_var s_srcs s_next s_stacks s_trace] in E. destruct E as (E & A). split; [|eapply after_trans; [|exact A]; aft [EDestroy 0 a (it_data it) KSelf]].
        rewrite Cb in E. cbn [waiting map] in E. unfold list_sum in *. cbn [fold_right] in E. destruct w; cbn [fw] in *; lia.
    + destruct (INV_free _ _ _ _ _ 0%nat _ _ _ I eq_refl) as (h' & Ec & P' & I'). rewrite Ec. flat. intros E. injection E as <-. split; [|aft [EBatchEnd 0]].
      pose proof (i_good _ _ _ _ _ I') as G. destruct G as ((o & Eo) & _). rewrite Wk. unfold work, stack0. flat. cbn [upd nth map waiting batches Nat.eqb]. rewrite Eo. cbn [tl concat app]. unfold list_sum. cbn [fold_right]. destruct w; cbn [fw]; lia.
  - unfold next_item in E. revert E. flat. destruct (INV_next _ _ _ _ _ 0%nat _ _ _ _ _ I eq_refl (or_introl eq_refl)) as (it & N & _). rewrite (get_ok _ _ _ N). flat. intros E. injection E as <-. split; [|aft [EReturn 0]].
    rewrite Wk. unfold work, stack0. flat. cbn [upd nth map waiting batches]. unfold list_sum. cbn [fold_right]. destruct w; cbn [fw]; lia.
  - unfold next_item in E. revert E. flat. destruct (INV_next _ _ _ _ _ 0%nat _ _ _ _ _ I eq_refl (or_intror eq_refl)) as (it & N & _). rewrite (get_ok _ _ _ N). flat. intros E. injection E as <-. split; [|aft (@nil event)].
    rewrite Wk. unfold work, stack0. flat. cbn [upd nth map waiting batches]. unfold list_sum. cbn [fold_right]. destruct w; cbn [fw]; lia.
  - assert (Nf : w <> WFinal) by (intros ->; specialize (Hf eq_refl); discriminate). unfold remove in E. revert E. flat. destruct (find _ srcs) as [(i & [|])|]; intros E.
    + injection E as <-. split; [|aft (@nil event)]. rewrite Wk. unfold work, stack0. flat. cbn [upd nth map waiting batches]. unfold list_sum. cbn [fold_right]. destruct w; cbn [fw]; try congruence; lia.
    + apply drop_work in E. cbn [s_heap s_pool s_var s_srcs s_next s_stacks s_trace set_srcs] in E. destruct E as (E & A). split; [|eapply after_trans; [|exact A]; aft [EUnsource id]]. rewrite Wk. cbn [waiting batches map] in E. unfold list_sum in *. cbn [fold_right] in E. destruct w; cbn [fw] in *; try congruence; lia.
    + injection E as <-. split; [|aft [EBadRemove id]]. rewrite Wk. unfold work, stack0. flat. cbn [upd nth map waiting batches]. unfold list_sum. cbn [fold_right]. destruct w; cbn [fw]; try congruence; lia.
  - assert (Nf : w <> WFinal) by (intros ->; specialize (Hf eq_refl); discriminate). eapply (end_work _ _ _ _ _ (FRemoved w)); eauto; cbn; intros; destruct w; try congruence; lia.
  - cbn in Nw. congruence.
Qed.

(* everything in progress on the thread of the pool ends *)
Lemma pass_end n : forall s, (work s < n)%nat -> inv s -> sane true s -> exists l s', forallb passive l = true /\ run s l = Ok s' /\ stack0 s' = [] /\ inv s' /\ sane true s' /\ after s s'.
Proof.
  induction n as [|n IH]; intros s Hn I Sn; [lia|]. destruct (stack0 s) as [|f k] eqn:E0. { exists [], s. repeat split; auto; apply after_refl. }
  assert (Cf : careful s (goes_on f)) by (unfold goes_on; destruct f; split; exact Logic.I).
  destruct (step_sane true s (goes_on f) I Sn Cf) as (s1 & E & Sn1). { intros _. unfold goes_on. destruct f; exact Logic.I. }
  destruct (step_fine s (goes_on f) I) as [(s2 & E2 & I2)|(ff & E2 & _)]; [|congruence]. rewrite E in E2. injection E2 as <-.
  assert (Facts : (wof f = Some WFinal -> idle0 s) /\ wof f <> None /\ (wof f = Some WFinal -> finalf f = true)).
  { unfold idle0, stack0 in *. destruct Sn as [q k0 ot E1 E2 E3 L C|q t g E1 E2 E3 E4 E5 E6 O C W|E1 E2 E3 E4 E5 E6].
    - rewrite E2 in E0. cbn in E0. subst k0. pose proof (l_who _ _ _ _ _ _ _ _ _ L) as X. inversion X as [|? ? Y _]. unfold living in Y. destruct (wof f) as [[]|]; repeat split; congruence.
    - rewrite E1. destruct (Nat.eq_dec t 0) as [->|N].
      + rewrite (nth_of _ _ _ _ E4) in E0. injection E0 as -> <-. repeat split; auto. destruct f; cbn in E5 |- *; congruence.
      + exfalso. destruct (s_stacks s) as [|x ks] eqn:Es; [discriminate|]. assert (x = []) by (eapply (E6 0%nat); auto). cbn in E0. congruence.
    - exfalso. unfold calm in E2. destruct (s_stacks s) as [|x ks]; [discriminate|]. inversion E2. cbn in E0. congruence. }
  destruct Facts as (F1 & F2 & F3). destruct (pass_work s s1 f k I E0 F1 F2 F3 E) as (Wl & Af).
  destruct (IH s1) as (l & s' & Pl & R & S0 & Iv & Sv & Av); auto; [lia|]. exists (goes_on f :: l), s'. repeat split; auto.
  - cbn [forallb]. rewrite Pl. unfold goes_on. destruct f; reflexivity.
  - cbn [run]. rewrite E. exact R.
  - apply (after_trans s s1 s'); auto.
  - apply (after_trans s s1 s'); auto.
  - apply (after_trans s s1 s'); auto.
  - apply (after_trans s s1 s'); auto.
Qed.

(* ---------------- the shared variable, for any client ---------------- *)
Definition vok (oq : option pool) (ks : list (list frame)) : Prop :=
  exists q, oq = Some q /\ 0 < p_refs q /\ p_shared q = true /\ forall k f, In k ks -> In f k -> wof f <> Some WFinal.
Definition vinv (s : state) : Prop := s_var s = VThis -> vok (s_pool s) (s_stacks s).
Lemma in_upd {A} (l : list A) t x y : In y (upd l t x) -> y = x \/ In y l.
Proof. revert t. induction l as [|z l IH]; intros [|t]; cbn; try tauto; intros [X|X]; auto. destruct (IH t X); auto. Qed.
Lemma vok_upd oq ks t k q' : vok oq ks -> (forall f, In f k -> wof f <> Some WFinal) -> 0 < p_refs q' -> (forall q, oq = Some q -> p_shared q' = p_shared q) -> vok (Some q') (upd ks t k).
Proof.
  intros (q & -> & R & Sh & F) Hk Hr Hs. exists q'. repeat split; auto; [rewrite (Hs q); auto|]. intros k1 f I1 I2. apply in_upd in I1. destruct I1 as [->|I1]; eauto.
Qed.
Lemma drop_v h oq v srcs n ks tr t k s' : (v = VThis -> vok oq ks) -> (v = VThis -> forall f, In f k -> wof f <> Some WFinal) -> drop (State h oq v srcs n ks tr) t k = Ok s' -> vinv s'.
Proof.
  intros V Hk. unfold drop. flat. destruct oq as [q|]; flat; [|discriminate]. destruct (Z.eqb_spec (p_refs q - 1) 0) as [Ez|Nz].
  - intros E. injection E as <-. unfold vinv. destruct (p_shared q) eqn:Es; flat; [discriminate|]. intros X. destruct (V X) as (q' & E & _ & Sh & _). congruence.
  - intros E. injection E as <-. unfold vinv. flat. intros X. eapply vok_upd; eauto; cbn.
    + destruct (V X) as (q' & E & R & _). injection E as <-. lia.
    + intros q' E. congruence.
Qed.
Lemma step_v s x s' : vinv s -> step s x = Ok s' -> vinv s'.
Proof.
  destruct x as (t & a). destruct s as [h oq v srcs n ks tr]. intros V. unfold step. flat. destruct (nth_error ks t) as [k0|] eqn:E; [|intros X; injection X as <-; auto].
  assert (Same : forall s', Ok (State h oq v srcs n ks tr) = Ok s' -> vinv s') by (intros s1 X; injection X as <-; auto).
  unfold vinv in V. cbn in V.
  assert (K0 : v = VThis -> forall f, In f k0 -> wof f <> Some WFinal). { intros X f If. destruct (V X) as (q & _ & _ & _ & F). eapply F; eauto. eapply nth_error_In; eauto. }
  assert (Put : forall h' tr' k q', oq = Some q' -> (v = VThis -> forall f, In f k -> wof f <> Some WFinal) -> vinv (State h' oq v srcs n (upd ks t k) tr')).
  { intros h' tr' k q' -> Hk. unfold vinv. cbn. intros X. eapply vok_upd; eauto; [destruct (V X) as (q & Eq & R & _); injection Eq as <-; auto|intros; congruence]. }
  assert (Put' : forall h' tr' k q q', oq = Some q' -> p_refs q = p_refs q' -> p_shared q = p_shared q' -> (v = VThis -> forall f, In f k -> wof f <> Some WFinal) -> forall srcs' n', vinv (State h' (Some q) v srcs' n' (upd ks t k) tr')).
  { intros h' tr' k q q' -> E1 E2 Hk srcs' n'. unfold vinv. cbn. intros X. eapply vok_upd; eauto; [rewrite E1; destruct (V X) as (q0 & Eq & R & _); injection Eq as <-; auto|intros; congruence]. }
  assert (End : forall w k, (v = VThis -> w <> WFinal /\ forall f, In f k -> wof f <> Some WFinal) -> drain_end (State h oq v srcs n ks tr) t w k = Ok s' -> vinv s').
  { intros w k Hw. unfold drain_end. flat. destruct w as [| |sid|]; flat.
    - intros X. injection X as <-. unfold vinv. cbn. intros X. destruct (V X) as (q & Eq & R & Sh & F). exists q. repeat split; auto. intros k1 f I1 I2. apply in_upd in I1. destruct I1 as [->|I1]; eauto. apply Hw; auto.
    - apply drop_v; auto. intros X. apply Hw. auto.
    - apply drop_v; auto. intros X. apply Hw. auto.
    - destruct oq as [q|]; [|discriminate]. intros X. injection X as <-. unfold vinv. cbn. intros X. destruct (Hw X). congruence. }
  assert (Call : forall c, do_call (State h oq v srcs n ks tr) t c k0 = Ok s' -> vinv s').
  { intros c. destruct c as [data| | | | ]; cbn [do_call].
    - unfold add. flat. destruct oq as [q|]; flat; [|discriminate]. assert (Res : forall h' f l tr', (let q := set_ends q f l in let s := State h' (Some q) v srcs n ks tr' in
        if Nat.eqb (p_idle q) 0 then let q := set_refs q (p_refs q + 1) in let (s, id) := attach s in Ok (set_pool s (Some (set_idle q id))) else Ok (set_pool s (Some q))) = Ok s' -> vinv s').
      { intros h' f l tr'. cbn [p_idle set_ends]. destruct (Nat.eqb (p_idle q) 0); cbn [attach]; flat; intros X; injection X as <-; unfold vinv; cbn; intros X; destruct (V X) as (q0 & Eq & R & Sh & F); injection Eq as <-; eexists; split; [reflexivity| |reflexivity|]; cbn; repeat split; auto; lia. }
      destruct (p_last q) as [l|].
      + destruct (get (h ++ [Some (Item None data KClient)]) l) as [it|] eqn:Eg; cbn [bind]; [|discriminate]. unfold put. flat. rewrite Eg. flat. apply (Res _ (p_first q) (Some (length h))).
      + flat. apply (Res _ (Some (length h)) (Some (length h))).
    - destruct oq as [q|]; flat; [|discriminate]. intros X. injection X as <-. unfold vinv. cbn. intros X. destruct (V X) as (q0 & Eq & R & Sh & F). injection Eq as <-. eexists. split; [reflexivity|]. cbn. repeat split; auto. lia.
    - flat. apply drop_v; auto.
    - flat. intros X. injection X as <-. unfold vinv. cbn. intros X. destruct (V X) as (q & Eq & R & Sh & F). exists q. repeat split; auto. intros k1 f I1 I2. apply in_upd in I1. destruct I1 as [->|I1]; eauto. destruct I2 as [<-|I2]; [discriminate|]. apply K0; auto.
    - flat. intros X. injection X as <-. unfold vinv. cbn. intros X. destruct (V X) as (q & Eq & R & Sh & F). exists q. repeat split; auto. intros k1 f I1 I2. apply in_upd in I1. destruct I1 as [->|I1]; eauto. destruct I2 as [<-|I2]; [discriminate|]. apply K0; auto. }
  assert (Disp : forall sid, dispatch (State h oq v srcs n ks tr) t sid k0 = Ok s' -> vinv s').
  { intros sid. unfold dispatch. flat. destruct (existsb _ srcs); [|apply Same]. flat. destruct oq as [q|]; flat; [|discriminate]. intros X. injection X as <-. eapply Put'; eauto.
    intros Y f [<-|If]; [destruct (Nat.eqb t 0); discriminate|]. apply K0; auto. }
  assert (Get : Ok (match v with VNull => set_var (State h oq v srcs n ks tr) VOther | _ => State h oq v srcs n ks tr end) = Ok s' -> vinv s').
  { intros X. injection X as <-. destruct v; auto. discriminate. }
  assert (Ot : Ok (match v with VOther => set_var (State h oq v srcs n ks tr) VNull | _ => State h oq v srcs n ks tr end) = Ok s' -> vinv s').
  { intros X. injection X as <-. destruct v; auto. discriminate. }
  assert (Next : forall tr' items item w k, (v = VThis -> w <> WFinal /\ forall f, In f k -> wof f <> Some WFinal) -> next_item (State h oq v srcs n ks tr') t items item w k = Ok s' -> vinv s').
  { intros tr' items item w k Hw. unfold next_item. flat. destruct (get h item) as [it|]; cbn [bind]; [|discriminate]. intros X. injection X as <-. unfold vinv. cbn. intros X. destruct (V X) as (q & Eq & R & Sh & F). exists q. repeat split; auto.
    destruct (Hw X) as (H1 & H2). intros k1 f I1 I2. apply in_upd in I1. destruct I1 as [->|I1]; eauto. destruct I2 as [<-|I2]; [cbn; congruence|auto]. }
  destruct k0 as [|f k].
  - destruct a; solve [auto|apply Call|apply Disp].
  - assert (Hk : v = VThis -> forall g, In g k -> wof g <> Some WFinal) by (intros X g Ig; apply K0; cbn; auto).
    assert (Hf : v = VThis -> forall w, wof f = Some w -> w <> WFinal) by (intros X w Ew ->; eapply K0; cbn; eauto).
    assert (Hw : forall w, wof f = Some w -> v = VThis -> w <> WFinal /\ forall g, In g k -> wof g <> Some WFinal) by (intros; split; [eapply Hf; eauto|auto]).
    assert (Hg : forall w g, wof f = Some w -> wof g = Some w -> v = VThis -> forall g', In g' (g :: k) -> wof g' <> Some WFinal).
    { intros w g W1 W2 X g' [<-|Ig]; [|apply Hk; auto]. rewrite W2. specialize (Hf X w W1). congruence. }
    destruct f as [w|items item w|items item w|items item w|id w|w|sid].
    + destruct a; auto. unfold loop. flat. destruct oq as [q|]; flat; [|discriminate]. destruct (p_first q) as [b|].
      * intros X. injection X as <-. eapply Put'; eauto. eapply Hg; reflexivity.
      * destruct (Nat.eqb (p_idle q) 0); [apply End; apply Hw; reflexivity|]. intros X. injection X as <-. eapply Put'; eauto. eapply Hg; reflexivity.
    + destruct a; auto. unfold batch. flat. destruct item as [b|].
      * destruct (get h b) as [it|]; flat; [|discriminate]. destruct (it_kind it).
        { intros X. injection X as <-. unfold vinv. cbn. intros X. destruct (V X) as (q & Eq & R & Sh & F). exists q. repeat split; auto. intros k1 f I1 I2. apply in_upd in I1. destruct I1 as [->|I1]; eauto. eapply (Hg w (FCb items b w)); eauto. }
        apply drop_v; auto. eapply Hg; reflexivity.
      * destruct (free_chain _ _ _) as [h'|]; flat; [|discriminate]. intros X. injection X as <-. unfold vinv. cbn. intros X. destruct (V X) as (q & Eq & R & Sh & F). exists q. repeat split; auto. intros k1 f I1 I2. apply in_upd in I1. destruct I1 as [->|I1]; eauto. eapply (Hg w (FLoop w)); eauto.
    + destruct a; try solve [auto|apply Call|apply Disp]. flat. apply Next. apply Hw. reflexivity.
    + destruct a; auto. apply Next. apply Hw. reflexivity.
    + destruct a; auto. unfold remove. flat.
      assert (Go : forall tr', vinv (State h oq v srcs n (upd ks t (FRemoved w :: k)) tr')).
      { intros tr'. unfold vinv. cbn. intros X. destruct (V X) as (q & Eq & R & Sh & F). exists q. repeat split; auto. intros k1 f I1 I2. apply in_upd in I1. destruct I1 as [->|I1]; eauto. eapply (Hg w (FRemoved w)); eauto. }
      destruct (find _ srcs) as [(i & [|])|].
      * intros X. injection X as <-. apply Go.
      * apply drop_v; auto. eapply Hg; reflexivity.
      * intros X. injection X as <-. apply Go.
    + destruct a; auto. apply End. apply Hw. reflexivity.
    + destruct a; auto. unfold idle_end. flat. apply drop_v; auto.
Qed.
Lemma starts_v s : starts s -> vinv s.
Proof.
  intros (n & [-> |E]); [discriminate|]. destruct (shared_start n) as (s' & E' & ->). rewrite E' in E. injection E as <-. intros _. eexists. split; [reflexivity|]. cbn. repeat split; try lia.
  intros k f [<-|I] If; [destruct If|]. apply repeat_spec in I. subst k. destruct If.
Qed.
Lemma run_v l : forall s s', vinv s -> run s l = Ok s' -> vinv s'.
Proof.
  induction l as [|a l IH]; cbn [run]; intros s s' V E. { injection E as <-. auto. }
  destruct (step s a) as [s1|f] eqn:Es; cbn [bind] in E; [|discriminate]. apply (IH s1); auto. eapply step_v; eauto.
Qed.

(* ... and it has never lost its last reference *)
Definition unzero (tr : list event) : Prop := ~ In EZero tr /\ ~ In EGone tr.
Definition zinv (s : state) : Prop := s_var s = VThis -> unzero (s_trace s).
Lemma unzero_cons e tr : e <> EZero -> e <> EGone -> unzero tr -> unzero (e :: tr).
Proof. intros N1 N2 (A & B). split; intros [X|X]; auto. Qed.
Lemma drop_z h oq v srcs n ks tr t k s' : (v = VThis -> vok oq ks) -> (v = VThis -> unzero tr) -> drop (State h oq v srcs n ks tr) t k = Ok s' -> zinv s'.
Proof.
  intros V Z0. unfold drop. flat. destruct oq as [q|]; flat; [|discriminate]. destruct (p_refs q - 1 =? 0); [|intros E; injection E as <-; exact Z0].
  intros E. injection E as <-. unfold zinv. destruct (p_shared q) eqn:Es; flat; [discriminate|]. intros X. destruct (V X) as (q' & E & _ & Sh & _). congruence.
Qed.
Lemma step_z s x s' : vinv s -> zinv s -> step s x = Ok s' -> zinv s'.
Proof.
  destruct x as (t & a). destruct s as [h oq v srcs n ks tr]. intros V Z0. unfold vinv, zinv in V, Z0. cbn in V, Z0. unfold step. flat. destruct (nth_error ks t) as [k0|] eqn:E; [|intros X; injection X as <-; exact Z0].
  assert (Same : forall s', Ok (State h oq v srcs n ks tr) = Ok s' -> zinv s') by (intros s1 X; injection X as <-; exact Z0).
  assert (Uz : forall e, e <> EZero -> e <> EGone -> v = VThis -> unzero (e :: tr)) by (intros; apply unzero_cons; auto).
  assert (K0 : v = VThis -> forall f, In f k0 -> wof f <> Some WFinal). { intros X f If. destruct (V X) as (q & _ & _ & _ & F). eapply F; eauto. eapply nth_error_In; eauto. }
  assert (End : forall w k, (v = VThis -> w <> WFinal) -> drain_end (State h oq v srcs n ks tr) t w k = Ok s' -> zinv s').
  { intros w k Hw. unfold drain_end. flat. destruct w as [| |sid|]; flat.
    - intros X. injection X as <-. unfold zinv. cbn. apply Uz; discriminate.
    - apply drop_z; auto. apply Uz; discriminate.
    - apply drop_z; auto. intros X. apply unzero_cons; [discriminate|discriminate|]. apply Uz; auto; discriminate.
    - destruct oq as [q|]; [|discriminate]. intros X. injection X as <-. unfold zinv. cbn. intros X. destruct (Hw X). auto. }
  assert (Call : forall c, do_call (State h oq v srcs n ks tr) t c k0 = Ok s' -> zinv s').
  { intros c. destruct c as [data| | | | ]; cbn [do_call].
    - unfold add. flat. destruct oq as [q|]; flat; [|discriminate]. assert (Res : forall h' f l, (let q := set_ends q f l in let s := State h' (Some q) v srcs n ks (EAdd (length h) data KClient :: tr) in
        if Nat.eqb (p_idle q) 0 then let q := set_refs q (p_refs q + 1) in let (s, id) := attach s in Ok (set_pool s (Some (set_idle q id))) else Ok (set_pool s (Some q))) = Ok s' -> zinv s').
      { intros h' f l. cbn [p_idle set_ends]. destruct (Nat.eqb (p_idle q) 0); cbn [attach]; flat; intros X; injection X as <-; unfold zinv; cbn; [|apply Uz; discriminate]. intros X. apply unzero_cons; [discriminate|discriminate|]. apply Uz; auto; discriminate. }
      destruct (p_last q) as [l|].
      + destruct (get (h ++ [Some (Item None data KClient)]) l) as [it|] eqn:Eg; cbn [bind]; [|discriminate]. unfold put. flat. rewrite Eg. flat. apply (Res _ (p_first q) (Some (length h))).
      + flat. apply (Res _ (Some (length h)) (Some (length h))).
    - destruct oq as [q|]; flat; [|discriminate]. intros X. injection X as <-. unfold zinv. cbn. apply Uz; discriminate.
    - flat. apply drop_z; auto. apply Uz; discriminate.
    - flat. intros X. injection X as <-. unfold zinv. cbn. apply Uz; discriminate.
    - flat. intros X. injection X as <-. unfold zinv. cbn. apply Uz; discriminate. }
  assert (Disp : forall sid, dispatch (State h oq v srcs n ks tr) t sid k0 = Ok s' -> zinv s').
  { intros sid. unfold dispatch. flat. destruct (existsb _ srcs); [|apply Same]. flat. destruct oq as [q|]; flat; [|discriminate]. intros X. injection X as <-. unfold zinv. cbn. apply Uz; discriminate. }
  assert (Get : Ok (match v with VNull => set_var (State h oq v srcs n ks tr) VOther | _ => State h oq v srcs n ks tr end) = Ok s' -> zinv s').
  { intros X. injection X as <-. destruct v; [discriminate|exact Z0|exact Z0]. }
  assert (Ot : Ok (match v with VOther => set_var (State h oq v srcs n ks tr) VNull | _ => State h oq v srcs n ks tr end) = Ok s' -> zinv s').
  { intros X. injection X as <-. destruct v; [exact Z0|exact Z0|discriminate]. }
  assert (Next : forall tr' items item w k, (v = VThis -> unzero tr') -> next_item (State h oq v srcs n ks tr') t items item w k = Ok s' -> zinv s').
  { intros tr' items item w k Hw. unfold next_item. flat. destruct (get h item) as [it|]; cbn [bind]; [|discriminate]. intros X. injection X as <-. exact Hw. }
  destruct k0 as [|f k].
  - destruct a; solve [auto|apply Call|apply Disp].
  - assert (Hf : forall w, wof f = Some w -> v = VThis -> w <> WFinal) by (intros w Ew X ->; eapply K0; cbn; eauto).
    destruct f as [w|items item w|items item w|items item w|id w|w|sid].
    + destruct a; auto. unfold loop. flat. destruct oq as [q|]; flat; [|discriminate]. destruct (p_first q) as [b|].
      * intros X. injection X as <-. unfold zinv. cbn. apply Uz; discriminate.
      * destruct (Nat.eqb (p_idle q) 0); [apply End; apply Hf; reflexivity|]. intros X. injection X as <-. exact Z0.
    + destruct a; auto. unfold batch. flat. destruct item as [b|].
      * destruct (get h b) as [it|]; flat; [|discriminate]. destruct (it_kind it).
        { intros X. injection X as <-. unfold zinv. cbn. apply Uz; discriminate. }
        apply drop_z; auto. apply Uz; discriminate.
      * destruct (free_chain _ _ _) as [h'|]; flat; [|discriminate]. intros X. injection X as <-. unfold zinv. cbn. apply Uz; discriminate.
    + destruct a; try solve [auto|apply Call|apply Disp]. flat. apply Next. apply Uz; discriminate.
    + destruct a; auto. apply Next. auto.
    + destruct a; auto. unfold remove. flat. destruct (find _ srcs) as [(i & [|])|].
      * intros X. injection X as <-. exact Z0.
      * apply drop_z; auto. apply Uz; discriminate.
      * intros X. injection X as <-. unfold zinv. cbn. apply Uz; discriminate.
    + destruct a; auto. apply End. apply Hf. reflexivity.
    + destruct a; auto. unfold idle_end. flat. apply drop_z; auto. apply Uz; discriminate.
Qed.
Lemma starts_z s : starts s -> zinv s.
Proof.
  intros (n & [-> |E]); [discriminate|]. destruct (shared_start n) as (s' & E' & ->). rewrite E' in E. injection E as <-. intros _. split; cbn; intuition discriminate.
Qed.
Lemma run_z l : forall s s', vinv s -> zinv s -> run s l = Ok s' -> zinv s'.
Proof.
  induction l as [|a l IH]; cbn [run]; intros s s' V Z0 E. { injection E as <-. auto. }
  destruct (step s a) as [s1|f] eqn:Es; cbn [bind] in E; [|discriminate]. apply (IH s1); auto; [eapply step_v; eauto|eapply step_z; eauto].
Qed.

(* ... and it keeps pointing to a shared pool until then *)
Definition pinv (s : state) : Prop := s_var s = VThis \/ In EZero (s_trace s).
Lemma pinv_more s s' : (s_var s' = s_var s \/ In EZero (s_trace s')) -> (exists evs, s_trace s' = evs ++ s_trace s) -> pinv s -> pinv s'.
Proof. intros [V|V] (evs & E) [P|P]; unfold pinv; auto; [left; congruence|]. right. rewrite E. apply in_app_iff. auto. Qed.
Lemma drop_p s t k s' : drop s t k = Ok s' -> pinv s -> pinv s'.
Proof.
  unfold drop, the_pool. destruct (s_pool s) as [q|]; cbn [bind]; [|discriminate]. destruct (p_refs q - 1 =? 0); intros E; injection E as <-; apply pinv_more; cbn.
  - auto.
  - exists [EZero]. destruct (p_shared q); reflexivity.
  - auto.
  - exists []. reflexivity.
Qed.
Ltac grow evs := apply pinv_more; [left; reflexivity|exists evs; reflexivity].
Lemma step_p s x s' : step s x = Ok s' -> pinv s -> pinv s'.
Proof.
  destruct x as (t & a). unfold step. destruct (nth_error (s_stacks s) t) as [k0|] eqn:E; [|intros X; injection X as <-; auto].
  assert (Same : forall s', Ok s = Ok s' -> pinv s -> pinv s') by (intros s1 X; injection X as <-; auto).
  assert (End : forall w k, drain_end s t w k = Ok s' -> pinv s -> pinv s').
  { intros w k. unfold drain_end. destruct w as [| |sid|].
    - intros X. injection X as <-. grow [EDrained t WClient].
    - intros X P. apply drop_p in X; auto. revert P. grow [EDrained t WDestroy].
    - unfold idle_end. intros X P. apply drop_p in X; auto. revert P. grow [EIdleEnd t sid; EDrained t (WIdle sid)].
    - destruct (s_pool (emit s (EDrained t WFinal))) as [q|]; [|discriminate]. intros X. injection X as <-. grow [EGone; EDrained t WFinal]. }
  assert (Call : forall c, do_call s t c k0 = Ok s' -> pinv s -> pinv s').
  { intros c. destruct c as [data| | | | ]; cbn [do_call].
    - unfold add, the_pool. cbn [s_pool emit set_heap]. destruct (s_pool s) as [q|]; cbn [bind]; [|discriminate]. destruct (p_last q) as [l|].
      + destruct (get _ l) as [it|]; cbn [bind]; [|discriminate]. destruct (put _ l _) as [h1|]; cbn [bind]; [|discriminate]. destruct (Nat.eqb _ 0); cbn [attach]; intros X; injection X as <-; [grow [ESource (s_next s); EAdd (length (s_heap s)) data KClient]|grow [EAdd (length (s_heap s)) data KClient]].
      + cbn [bind]; match goal with |- context [Nat.eqb ?x 0] => destruct (Nat.eqb x 0) end; cbn [attach]; intros X; injection X as <-; [grow [ESource (s_next s); EAdd (length (s_heap s)) data KClient]|grow [EAdd (length (s_heap s)) data KClient]].
    - unfold the_pool. destruct (s_pool s) as [q|]; cbn [bind]; [|discriminate]. intros X. injection X as <-. grow [ERef].
    - intros X P. apply drop_p in X; auto. revert P. grow [EUnref].
    - intros X. injection X as <-. grow [EDrain t].
    - intros X. injection X as <-. grow [EKill]. }
  assert (Disp : forall sid, dispatch s t sid k0 = Ok s' -> pinv s -> pinv s').
  { intros sid. unfold dispatch, the_pool. destruct (existsb _ (s_srcs s)); [|apply Same]. cbn [s_pool emit set_srcs]. destruct (s_pool s) as [q|]; cbn [bind]; [|discriminate]. intros X. injection X as <-. grow [EIdle t sid]. }
  assert (Get : Ok (match s_var s with VNull => set_var s VOther | _ => s end) = Ok s' -> pinv s -> pinv s').
  { intros X. injection X as <-. unfold pinv. destruct (s_var s) eqn:V; cbn; rewrite ?V; auto. intros [P|P]; auto. discriminate. }
  assert (Ot : Ok (match s_var s with VOther => set_var s VNull | _ => s end) = Ok s' -> pinv s -> pinv s').
  { intros X. injection X as <-. unfold pinv. destruct (s_var s) eqn:V; cbn; rewrite ?V; auto. intros [P|P]; auto. discriminate. }
  assert (Next : forall s1 items item w k, pinv s1 -> next_item s1 t items item w k = Ok s' -> pinv s').
  { intros s1 items item w k P. unfold next_item. destruct (get _ item) as [it|]; cbn [bind]; [|discriminate]. intros X. injection X as <-. exact P. }
  destruct k0 as [|f k]; [destruct a; solve [auto|apply Call|apply Disp]|]. destruct f as [w|items item w|items item w|items item w|id w|w|sid].
  - destruct a; auto. unfold loop, the_pool. destruct (s_pool s) as [q|]; cbn [bind]; [|discriminate]. destruct (p_first q) as [b|]; [intros X; injection X as <-; grow [EBatch t]|].
    destruct (Nat.eqb (p_idle q) 0); [apply End|]. intros X. injection X as <-. grow (@nil event).
  - destruct a; auto. unfold batch. destruct item as [b|].
    + destruct (get _ b) as [it|]; cbn [bind]; [|discriminate]. destruct (it_kind it); [intros X; injection X as <-; grow [EDestroy t b (it_data it) KClient]|].
      intros X P. apply drop_p in X; auto. revert P. grow [EDestroy t b (it_data it) KSelf].
    + destruct (free_chain _ _ _) as [h'|]; cbn [bind]; [|discriminate]. intros X. injection X as <-. grow [EBatchEnd t].
  - destruct a; try solve [auto|apply Call|apply Disp]. intros X P. eapply Next; [|exact X]. revert P. grow [EReturn t].
  - destruct a; auto. intros X P. eapply Next; eauto.
  - destruct a; auto. unfold remove. destruct (find _ (s_srcs s)) as [(i & [|])|].
    + intros X. injection X as <-. grow (@nil event).
    + intros X P. apply drop_p in X; auto. revert P. grow [EUnsource id].
    + intros X. injection X as <-. grow [EBadRemove id].
  - destruct a; auto. apply End.
  - destruct a; auto. unfold idle_end. intros X P. apply drop_p in X; auto. revert P. grow [EIdleEnd t sid].
Qed.
Lemma run_p l : forall s s', run s l = Ok s' -> pinv s -> pinv s'.
Proof.
  induction l as [|a l IH]; cbn [run]; intros s s' E P. { injection E as <-. auto. }
  destruct (step s a) as [s1|f] eqn:Es; cbn [bind] in E; [|discriminate]. apply (IH s1); auto. eapply step_p; eauto.
Qed.

(* What is done to a pool which is not the shared one leaves the variable alone *)
Definition priv (s : state) : Prop := match s_pool s with Some q => p_shared q = false | None => True end.
Definition keeps (s s' : state) : Prop := priv s -> priv s' /\ s_var s' = s_var s.
Lemma keeps_refl s : keeps s s.
Proof. intros P. auto. Qed.
Lemma keeps_trans a b c : keeps a b -> keeps b c -> keeps a c.
Proof. intros H1 H2 P. destruct (H1 P) as (P1 & E1). destruct (H2 P1) as (P2 & E2). split; [auto|congruence]. Qed.
Lemma drop_k s t k s' : drop s t k = Ok s' -> keeps s s'.
Proof.
  unfold drop, the_pool, keeps, priv. destruct (s_pool s) as [q|] eqn:Eq; cbn [bind]; [|discriminate].
  destruct (p_refs q - 1 =? 0); intros E P; injection E as <-; cbn; rewrite ?P; cbn; rewrite ?Eq; auto.
Qed.
Ltac same := let P := fresh in intros P; unfold priv in *; cbn in *; repeat match goal with E : s_pool _ = _ |- _ => rewrite E in * end; auto.
Lemma step_k s t a s' : step s (t, a) = Ok s' -> a <> AGet -> a <> AOtherGone -> keeps s s'.
Proof.
  unfold step. intros St Ng No. revert St. destruct (nth_error (s_stacks s) t) as [k0|] eqn:E; [|intros X; injection X as <-; apply keeps_refl].
  assert (Same : forall s', Ok s = Ok s' -> keeps s s') by (intros s1 X; injection X as <-; apply keeps_refl).
  assert (End : forall w k, drain_end s t w k = Ok s' -> keeps s s').
  { intros w k. unfold drain_end. destruct w as [| |sid|].
    - intros X. injection X as <-. same.
    - intros X. apply drop_k in X. eapply keeps_trans; [|exact X]. same.
    - unfold idle_end. intros X. apply drop_k in X. eapply keeps_trans; [|exact X]. same.
    - destruct (s_pool (emit s (EDrained t WFinal))) as [q|]; [|discriminate]. intros X. injection X as <-. same. }
  assert (Call : forall c, do_call s t c k0 = Ok s' -> keeps s s').
  { intros c. destruct c as [data| | | | ]; cbn [do_call].
    - unfold add, the_pool. cbn [s_pool emit set_heap]. destruct (s_pool s) as [q|] eqn:Eq; cbn [bind]; [|discriminate]. destruct (p_last q) as [l|].
      + destruct (get _ l) as [it|]; cbn [bind]; [|discriminate]. destruct (put _ l _) as [h1|]; cbn [bind]; [|discriminate]. destruct (Nat.eqb _ 0); cbn [attach]; intros X; injection X as <-; same.
      + cbn [bind]; match goal with |- context [Nat.eqb ?x 0] => destruct (Nat.eqb x 0) end; cbn [attach]; intros X; injection X as <-; same.
    - unfold the_pool. destruct (s_pool s) as [q|] eqn:Eq; cbn [bind]; [|discriminate]. intros X. injection X as <-. same.
    - intros X. apply drop_k in X. eapply keeps_trans; [|exact X]. same.
    - intros X. injection X as <-. same.
    - intros X. injection X as <-. same. }
  assert (Disp : forall sid, dispatch s t sid k0 = Ok s' -> keeps s s').
  { intros sid. unfold dispatch, the_pool. destruct (existsb _ (s_srcs s)); [|apply Same]. cbn [s_pool emit set_srcs]. destruct (s_pool s) as [q|] eqn:Eq; cbn [bind]; [|discriminate]. intros X. injection X as <-. same. }
  assert (Next : forall s1 items item w k, keeps s s1 -> next_item s1 t items item w k = Ok s' -> keeps s s').
  { intros s1 items item w k P. unfold next_item. destruct (get _ item) as [it|]; cbn [bind]; [|discriminate]. intros X. injection X as <-. exact P. }
  destruct k0 as [|f k]; [destruct a; solve [congruence|auto|apply Call|apply Disp]|]. destruct f as [w|items item w|items item w|items item w|id w|w|sid].
  - destruct a; auto. unfold loop, the_pool. destruct (s_pool s) as [q|] eqn:Eq; cbn [bind]; [|discriminate]. destruct (p_first q) as [b|]; [intros X; injection X as <-; same|].
    destruct (Nat.eqb (p_idle q) 0); [apply End|]. intros X. injection X as <-. same.
  - destruct a; auto. unfold batch. destruct item as [b|].
    + destruct (get _ b) as [it|]; cbn [bind]; [|discriminate]. destruct (it_kind it); [intros X; injection X as <-; same|].
      intros X. apply drop_k in X. eapply keeps_trans; [|exact X]. same.
    + destruct (free_chain _ _ _) as [h'|]; cbn [bind]; [|discriminate]. intros X. injection X as <-. same.
  - destruct a; try solve [congruence|auto|apply Call|apply Disp]. intros X. eapply Next; [|exact X]. same.
  - destruct a; auto. intros X. eapply Next; [apply keeps_refl|eauto].
  - destruct a; auto. unfold remove. destruct (find _ (s_srcs s)) as [(i & [|])|].
    + intros X. injection X as <-. same.
    + intros X. apply drop_k in X. eapply keeps_trans; [|exact X]. same.
    + intros X. injection X as <-. same.
  - destruct a; auto. apply End.
  - destruct a; auto. unfold idle_end. intros X. apply drop_k in X. eapply keeps_trans; [|exact X]. same.
Qed.
Lemma step_priv s x s' : step s x = Ok s' -> priv s -> priv s'.
Proof.
  destruct x as (t & a). intros St P.
  assert (D : (a = AGet \/ a = AOtherGone) \/ (a <> AGet /\ a <> AOtherGone)) by (destruct a; (left; solve [auto]) || (right; split; discriminate)).
  destruct D as [D|(D1 & D2)]; [|exact (proj1 (step_k _ _ _ _ St D1 D2 P))].
  assert (Same : forall r, Ok s = Ok r -> priv r) by (intros r X; injection X as <-; auto).
  unfold step in St. destruct (nth_error (s_stacks s) t) as [k0|]; [|auto].
  destruct D as [-> | ->]; destruct k0 as [|f k]; try destruct f; auto; injection St as <-; unfold priv in *; destruct (s_var s); exact P.
Qed.
Lemma run_priv l : forall s s', run s l = Ok s' -> priv s -> priv s'.
Proof.
  induction l as [|a l IH]; cbn [run]; intros s s' E P. { injection E as <-. auto. }
  destruct (step s a) as [s1|f] eqn:Es; cbn [bind] in E; [|discriminate]. apply (IH s1); auto. eapply step_priv; eauto.
Qed.
