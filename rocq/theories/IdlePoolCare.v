(* Careful clients of the idle pool *)
From Verif Require Import Base IdlePoolModel IdlePoolSpec IdlePoolProofs IdlePoolInv IdlePoolStep IdlePoolSane.
From Coq Require Import Permutation.

Definition isrm (f : frame) : bool := match f with FRemove _ _ | FRemoved _ => true | _ => false end.
Definition loopidle (f : frame) : bool := match f with FLoop (WIdle _) => true | _ => false end.

(* the innermost function goes on *)
Lemma Liv_swap hm r q v srcs n f k ot tr r' q' f' tr' w : Liv hm r q v srcs n (f :: k) ot tr -> wof f = Some w -> wof f' = Some w ->
  r' - len (selflist tr') = r - len (selflist tr) -> owned tr' = owned tr -> draining tr' = draining tr -> scheduled tr' = scheduled tr ->
  p_shared q' = p_shared q -> (p_idle q' <> 0%nat -> p_idle q' = p_idle q) ->
  (forall id, In (id, false) srcs -> p_idle q = id \/ f = FRemove id w -> p_idle q' = id \/ f' = FRemove id w) ->
  (isrm f' = true -> waiting tr' = [] /\ p_idle q' = 0%nat) ->
  (waiting tr' <> [] -> p_idle q' = p_idle q /\ waiting tr <> [] /\ loopidle f = false) ->
  Liv hm r' q' v srcs n (f' :: k) ot tr'.
Proof.
  intros I Wf Wf' Hr Ho Hd Hs Hsh Hi Hout Hrm Hw. openl I.
  assert (Nc : ncli (f' :: k) = ncli (f :: k)) by (rewrite !(ncli_cons _ _ w) by auto; auto).
  assert (Nd : ndest (f' :: k) = ndest (f :: k)) by (rewrite !(ndest_cons _ _ w) by auto; auto).
  assert (Ns : sids (f' :: k) = sids (f :: k)) by (rewrite !(sids_cons _ _ w) by auto; auto).
  constructor; rewrite ?Nc, ?Nd, ?Ns, ?Ho, ?Hd, ?Hs, ?Hsh; auto.
  - lia.
  - inversion l_who0; subst. constructor; auto. unfold living in *. rewrite Wf' in *. rewrite Wf in *. auto.
  - intros X. rewrite (Hi X). apply l_idle0. rewrite <- (Hi X). auto.
  - intros id X. destruct (Hout id X) as [Y|Y]; auto.
    + destruct (l_out0 id X) as [Y|(w' & k' & Y)]; auto. injection Y as -> ->. right. cbn in Wf. congruence.
    + right. exists w, k. congruence.
  - destruct f'; auto.
  - intros Hm X. destruct (Hw X) as (A & B & C). destruct (l_ready0 Hm B) as [Y|(sid & k' & Y)]; [left; congruence|]. injection Y as -> _. discriminate.
Qed.

Lemma idle_none hm r q v srcs n f k ot tr : Liv hm r q v srcs n (f :: k) ot tr -> p_idle q = 0%nat -> (forall id w, f <> FRemove id w) -> awake srcs = [].
Proof.
  intros I Z0 Nf. openl I. destruct (awake srcs) as [|id l] eqn:E; auto. exfalso. assert (X : In (id, false) srcs) by (apply awake_in; rewrite E; cbn; auto).
  destruct (l_out0 id X) as [Y|(w & k' & Y)]; [specialize (l_lt0 _ _ X); lia|]. injection Y as Y _. eapply Nf; eauto.
Qed.

(* the innermost function returns *)
Lemma Liv_pop hm r q v srcs n f k ot tr w tr' srcs' r' : Liv hm r q v srcs n (f :: k) ot tr -> wof f = Some w -> waiting tr = [] -> p_idle q = 0%nat -> (forall id w, f <> FRemove id w) ->
  waiting tr' = [] -> owned tr' = owned tr -> draining tr' = draining tr - wcli w -> selflist tr' = selflist tr -> scheduled tr' = [] ->
  srcs' = match w with WIdle sid => without srcs sid | _ => srcs end -> r' = r - match w with WClient => 0 | _ => 1 end -> Liv hm r' q v srcs' n k ot tr'.
Proof.
  intros I Wf W Z0 Nf W' Ho Hd Hl Hs Es Er. pose proof (idle_none _ _ _ _ _ _ _ _ _ _ I Z0 Nf) as Aw. openl I.
  rewrite (ncli_cons _ _ w) in * by auto. rewrite (ndest_cons _ _ w) in * by auto. rewrite (sids_cons _ _ w) in * by auto.
  inversion l_who0 as [|? ? Lf Lk]; subst x l. cbn [tl] in l_tail0. pose proof (ncli_pos k). pose proof (ndest_pos k).
  assert (Sub : forall x, In x srcs' -> In x srcs). { subst srcs'. intros x X. destruct w; auto. apply in_without in X. tauto. }
  assert (Top : match k with FRemove _ _ :: _ | FRemoved _ :: _ => False | _ => True end). { destruct k as [|g k]; auto. inversion l_tail0 as [|? ? X _]. destruct g; auto; discriminate. }
  constructor; rewrite ?Ho, ?Hd, ?Hl, ?W'; auto.
  - subst r' r srcs'. destruct w as [| |sid|]; cbn [wcli wdest]; try lia.
    + rewrite (len_without srcs sid true) by (auto; apply l_in0; cbn; auto). lia.
    + unfold living in Lf. rewrite Wf in Lf. discriminate.
  - lia.
  - intros X. apply l_cli0. destruct w; cbn [wcli]; lia.
  - destruct k; cbn; auto. inversion l_tail0; auto.
  - subst srcs'. destruct w; auto. apply nodup_without. auto.
  - intros id b X. apply (l_lt0 id b). auto.
  - intros s. subst srcs'. destruct w as [| |sid|]; auto. rewrite in_without, l_in0. cbn [wsid app fst]. cbn [wsid app] in l_ns0. inversion l_ns0 as [|? ? Nx _]; subst. cbn [In]. split.
    + intros ([->|X] & Y); [congruence|auto].
    + intros X. split; auto. intros ->. auto.
  - destruct w; auto. cbn in l_ns0. inversion l_ns0; auto.
  - intros X. contradiction.
  - intros id X. apply Sub in X. destruct (l_out0 id X) as [Y|(w' & k' & Y)]; auto. injection Y as Y _. exfalso. eapply Nf; eauto.
  - destruct k as [|[] k]; auto.
  - rewrite Hs. symmetry. subst srcs'. destruct w; auto. rewrite awake_without, Aw. reflexivity.
Qed.

Lemma clean_app evs tr : forallb (fun e => match e with EDrained _ _ => false | _ => true end) evs = true -> clean tr -> clean (evs ++ tr).
Proof. induction evs as [|e evs IH]; cbn; auto. intros E C. apply andb_prop in E. destruct E as (E & F). destruct e; try discriminate; auto. Qed.

(* lines 153, 216, 142 *)
Lemma end_sane hm h q v srcs n f k ot tr w : Liv hm (p_refs q) q v srcs n (f :: k) ot tr -> wof f = Some w -> waiting tr = [] -> p_idle q = 0%nat -> (forall id w, f <> FRemove id w) ->
  0 < p_refs q -> clean tr -> exists s', drain_end (State h (Some q) v srcs n ((f :: k) :: ot) tr) 0 w k = Ok s' /\ sane hm s'.
Proof.
  intros I Wf W Z0 Nf Pr C. pose proof (idle_none _ _ _ _ _ _ _ _ _ _ I Z0 Nf) as Aw. pose proof (l_sch _ _ _ _ _ _ _ _ _ I) as Sc. rewrite Aw in Sc.
  pose proof (l_dr _ _ _ _ _ _ _ _ _ I) as Dr.
  unfold drain_end. destruct w as [| |sid|]; flat.
  - eexists. split; [reflexivity|]. eapply (live hm _ q k ot); flat; auto.
    + eapply (Liv_pop hm _ q v srcs n f k ot tr WClient); eauto; cbn; auto; lia.
    + cbn. auto.
  - apply (drop_sane hm h q v srcs n ((f :: k) :: ot) (EDrained 0 WDestroy :: tr) 0 k k ot); cbn; auto; try lia.
    eapply (Liv_pop hm _ q v srcs n f k ot tr WDestroy); eauto; cbn; auto; lia.
  - unfold idle_end. flat. apply (drop_sane hm h q v (without srcs sid) n ((f :: k) :: ot) (EIdleEnd 0 sid :: EDrained 0 (WIdle sid) :: tr) 0 k k ot); cbn; auto; try lia.
    eapply (Liv_pop hm _ q v srcs n f k ot tr (WIdle sid)); eauto; cbn; auto; lia.
  - exfalso. pose proof (l_who _ _ _ _ _ _ _ _ _ I) as X. inversion X as [|? ? Lf _]. unfold living in Lf. rewrite Wf in Lf. discriminate.
Qed.

(* lines 225-254 *)
Lemma add_sane hm h q v srcs n k0 ot tr P data : INV h (Some q) (k0 :: ot) tr P -> Liv hm (p_refs q) q v srcs n k0 ot tr -> 0 < p_refs q -> clean tr ->
  match k0 with [] | FCb _ _ _ :: _ => True | _ => False end -> exists s', add (State h (Some q) v srcs n (k0 :: ot) tr) data KClient = Ok s' /\ sane hm s'.
Proof.
  intros I Lv Pr C Hk.
  assert (Res : forall h' f l, exists s', (let q := set_ends q f l in let s := State h' (Some q) v srcs n (k0 :: ot) (EAdd (length h) data KClient :: tr) in
      if Nat.eqb (p_idle q) 0 then let q := set_refs q (p_refs q + 1) in let (s, id) := attach s in Ok (set_pool s (Some (set_idle q id))) else Ok (set_pool s (Some q))) = Ok s' /\ sane hm s').
  { intros h' f l. openl Lv. cbn [p_idle set_ends]. destruct (Nat.eqb_spec (p_idle q) 0) as [Ez|Nz].
    - cbn [attach]. flat. eexists. split; [reflexivity|]. eapply (live hm _ _ k0 ot); flat; [reflexivity|reflexivity| | |exact C].
      + cbn. lia.
      + assert (Nn : forall b, ~ In (n, b) srcs). { intros b X. specialize (l_lt0 _ _ X). lia. }
        constructor; cbn [p_refs p_idle p_shared set_idle set_refs set_ends owned draining selflist scheduled waiting]; auto.
        * rewrite l_refs0. unfold len. rewrite app_length. cbn [length]. lia.
        * rewrite map_app. cbn. apply (Permutation_NoDup (l := n :: map fst srcs)); [apply Permutation_cons_append|]. constructor; auto.
          intros X. apply in_map_iff in X. destruct X as ((i & b) & E & X). cbn in E. subst i. eapply Nn; eauto.
        * intros id b X. apply in_app_iff in X. destruct X as [X|[X|[]]]; [specialize (l_lt0 _ _ X); lia|]. injection X as <- <-. lia.
        * intros sid. rewrite in_app_iff. cbn. rewrite <- l_in0. split; auto. intros [X|[X|[]]]; [auto|discriminate].
        * intros _. apply in_app_iff. right. cbn. auto.
        * intros id X. apply in_app_iff in X. destruct X as [X|[X|[]]]; [|injection X as <-; auto]. destruct (l_out0 id X) as [Y|(w & k & Y)]; [specialize (l_lt0 _ _ X); lia|].
          subst k0. destruct Hk.
        * destruct k0 as [|[] k0]; auto; destruct Hk.
        * rewrite l_sch0. unfold awake. rewrite filter_app, map_app. reflexivity.
        * intros Hm _. left. lia.
    - eexists. split; [reflexivity|]. eapply (live hm _ _ k0 ot); flat; [reflexivity|reflexivity|exact Pr| |exact C].
      constructor; cbn [p_refs p_idle p_shared set_idle set_refs set_ends owned draining selflist scheduled waiting]; auto. destruct k0 as [|[] k0]; auto; destruct Hk. }
  unfold add. flat. destruct (INV_add h q (k0 :: ot) tr P data KClient I) as [(El & _)|(l & it & El & Nl & _)]; rewrite El; flat.
  - apply Res.
  - rewrite (get_ok _ _ _ Nl). flat. rewrite (put_ok _ _ _ _ Nl). flat. apply Res.
Qed.

(* lines 184-216 *)
Lemma perm_in {A} (l l' : list A) x : Permutation l l' -> In x l <-> In x l'.
Proof. intros H. split; apply Permutation_in; auto. symmetry. auto. Qed.
Lemma sids_perm k k' : Permutation k k' -> Permutation (sids k) (sids k').
Proof. intros H. unfold sids. apply Permutation_flat_map. auto. Qed.
Lemma sids_app k k' : sids (k ++ k') = sids k ++ sids k'. Proof. unfold sids. apply flat_map_app. Qed.
Lemma call_in l sid : existsb (fun x => Nat.eqb (fst x) sid && negb (snd x)) l = true -> In (sid, false) l.
Proof.
  intros X. apply existsb_exists in X. destruct X as ((i & b) & I & E). cbn in E. apply andb_prop in E. destruct E as (E & B). apply Nat.eqb_eq in E. destruct b; [discriminate|]. subst i. auto.
Qed.
Lemma start_len l sid : len (start_call l sid) = len l.
Proof. unfold start_call, len. rewrite map_length. auto. Qed.

Lemma dispatch_sane hm h q v srcs n k0 ot tr t sid k : Liv hm (p_refs q) q v srcs n k0 ot tr -> 0 < p_refs q -> clean tr -> nth_error (k0 :: ot) t = Some k ->
  match k with [] | FCb _ _ _ :: _ => True | _ => False end -> (hm = true -> t = 0%nat) ->
  exists s', dispatch (State h (Some q) v srcs n (k0 :: ot) tr) t sid k = Ok s' /\ sane hm s'.
Proof.
  intros Lv Pr C Et Hk Hh. unfold dispatch. flat. destruct (existsb _ srcs) eqn:Ex.
  2:{ eexists. split; [reflexivity|]. eapply (live hm _ q k0 ot); flat; auto. }
  apply call_in in Ex. cbn [bind]. eexists. split; [reflexivity|]. openl Lv.
  assert (Xs : In sid (map fst srcs)). { apply in_map_iff. exists (sid, false). auto. }
  assert (Nin : ~ In sid (sids k0 ++ sids (concat ot))). { intros X. apply l_in0 in X. pose proof (same_bool _ _ _ _ l_nd0 X Ex). discriminate. }
  assert (Out : forall id, In (id, false) (start_call srcs sid) -> exists w k', k0 = FRemove id w :: k').
  { intros id X. apply start_in in X. destruct X as [(N & X)|(-> & Y & _)]; [|discriminate]. destruct (l_out0 id X) as [Y|Y]; auto. exfalso.
    destruct (l_out0 sid Ex) as [Z0|(w & k' & Z0)]; [congruence|]. rewrite Z0 in l_rm0. destruct l_rm0 as (_ & Z1). specialize (l_lt0 _ _ X). lia. }
  destruct t as [|u].
  - cbn in Et. injection Et as ->. cbn [Nat.eqb]. eapply (live hm _ (set_idle q 0) (FLoop (WIdle sid) :: k) ot); flat; [reflexivity|reflexivity|exact Pr| |exact C].
    fold (start_call srcs sid). constructor; cbn [p_refs p_idle p_shared set_idle owned draining selflist scheduled waiting]; auto.
    + rewrite (ndest_cons _ _ (WIdle sid)), start_len by auto. cbn [wdest]. lia.
    + cbn [tl]. destruct k as [|f k]; auto. constructor; auto. destruct f; auto; destruct Hk.
    + rewrite start_fst. auto.
    + intros id b X. apply start_in in X. destruct X as [(_ & X)|(-> & _ & _)]; eauto.
    + intros s. rewrite (sids_cons _ _ (WIdle sid)) by auto. cbn [wsid app In]. rewrite start_in, <- l_in0. split.
      * intros [(N & X)|(-> & _)]; auto.
      * intros [<-|X]; auto. left. split; auto. intros ->. apply Nin. apply l_in0. auto.
    + rewrite (sids_cons _ _ (WIdle sid)) by auto. cbn [wsid app]. constructor; auto.
    + intros X. contradiction.
    + intros id X. destruct (Out id X) as (w & k' & ->). destruct Hk.
    + rewrite start_awake, l_sch0. reflexivity.
    + intros _ _. right. eauto.
  - cbn [nth_error] in Et. cbn [Nat.eqb]. eapply (live hm _ (set_idle q 0) k0 (upd ot u (FOther sid :: k))); flat; [reflexivity|reflexivity|exact Pr| |exact C].
    fold (start_call srcs sid). destruct (focus _ _ _ Et) as (R & HR).
    assert (k = []) as ->. { rewrite Forall_forall in l_ot0. destruct (l_ot0 k (nth_error_In _ _ Et)) as [|(s & ->)]; auto. destruct Hk. }
    assert (Sp : Permutation (sids (concat (upd ot u [FOther sid]))) (sid :: sids (concat ot))).
    { pose proof (HR []) as H0. rewrite (upd_same _ _ _ Et) in H0. apply sids_perm in H0. cbn in H0. pose proof (HR [FOther sid]) as H1. apply sids_perm in H1. cbn in H1.
      rewrite H1. apply perm_skip. symmetry. auto. }
    assert (Sq : Permutation (sids k0 ++ sids (concat (upd ot u [FOther sid]))) (sid :: sids k0 ++ sids (concat ot))).
    { rewrite Sp. symmetry. apply Permutation_middle. }
    constructor; cbn [p_refs p_idle p_shared set_idle owned draining selflist scheduled waiting]; auto.
    + rewrite start_len. lia.
    + rewrite Forall_forall in *. intros x X. apply In_nth_error in X. destruct X as (j & X). destruct (Nat.eq_dec j u) as [->|N].
      * rewrite (upd_here _ _ _ _ Et) in X. injection X as <-. right. eauto.
      * rewrite nth_error_upd_ne in X by auto. apply l_ot0. eapply nth_error_In; eauto.
    + rewrite start_fst. auto.
    + intros id b X. apply start_in in X. destruct X as [(_ & X)|(-> & _ & _)]; eauto.
    + intros s. rewrite start_in. rewrite (perm_in _ _ s Sq). cbn [In]. rewrite <- l_in0. split.
      * intros [(N & X)|(-> & _)]; auto.
      * intros [<-|X]; auto. left. split; auto. intros ->. apply Nin. apply l_in0. auto.
    + eapply Permutation_NoDup; [symmetry; exact Sq|]. constructor; auto.
    + intros X. contradiction.
    + destruct k0 as [|[] k0]; auto; cbn; tauto.
    + rewrite start_awake, l_sch0. reflexivity.
    + intros Hm. specialize (Hh Hm). discriminate.
Qed.

Lemma drop_live hm h q v srcs n ks tr t k' k0 ot : (t < length ks)%nat -> Liv hm (p_refs q - 1) q v srcs n k0 ot tr -> upd ks t k' = k0 :: ot -> clean tr ->
  exists s', drop (State h (Some q) v srcs n ks tr) t k' = Ok s' /\ sane hm s'.
Proof.
  intros Lt I E C. eapply drop_sane; eauto. intros Hm Ei. destruct (waiting tr) eqn:Ew; auto. right. pose proof (l_ready _ _ _ _ _ _ _ _ _ I Hm) as X.
  rewrite Ew in X. destruct X as [X|(sid & k & ->)]; congruence.
Qed.

(* lines 121-130, 132-145, 157-165, 147-152 *)
Lemma ref_sane hm h q v srcs n k0 ot tr : Liv hm (p_refs q) q v srcs n k0 ot tr -> 0 < p_refs q -> clean tr ->
  sane hm (State h (Some (set_refs q (p_refs q + 1))) v srcs n (k0 :: ot) (ERef :: tr)).
Proof.
  intros I Pr C. eapply (live hm _ _ k0 ot); flat; [reflexivity|reflexivity|cbn; lia| |exact C]. openl I. constructor; cbn [p_refs p_idle p_shared set_refs owned draining selflist scheduled waiting]; auto; lia.
Qed.
Lemma unref_sane hm h q v srcs n k0 ot tr t k : Liv hm (p_refs q) q v srcs n k0 ot tr -> clean tr -> nth_error (k0 :: ot) t = Some k ->
  1 <= owned tr -> 2 <= owned tr \/ draining tr = 0 ->
  exists s', drop (State h (Some q) v srcs n (k0 :: ot) (EUnref :: tr)) t k = Ok s' /\ sane hm s'.
Proof.
  intros I C E Ho Hc. apply (drop_live hm h q v srcs n (k0 :: ot) (EUnref :: tr) t k k0 ot); auto.
  - eapply nth_error_lt; eauto.
  - openl I. constructor; cbn [owned draining selflist scheduled waiting]; auto; try lia.
  - apply upd_same. auto.
Qed.
Lemma push_sane hm h q v srcs n k ot tr w e : Liv hm (p_refs q) q v srcs n k ot tr -> 0 < p_refs q -> clean tr ->
  match k with [] | FCb _ _ _ :: _ => True | _ => False end ->
  (w = WClient /\ e = EDrain 0 /\ 1 <= owned tr) \/ (w = WDestroy /\ e = EKill /\ 1 <= owned tr /\ (2 <= owned tr \/ draining tr = 0)) ->
  sane hm (State h (Some q) v srcs n ((FLoop w :: k) :: ot) (e :: tr)).
Proof.
  intros I Pr C Hk Hw. eapply (live hm _ q (FLoop w :: k) ot); flat; [reflexivity|reflexivity|exact Pr| |].
  2:{ destruct Hw as [(_ & -> & _)|(_ & -> & _)]; exact C. }
  assert (Hsel : selflist (e :: tr) = selflist tr /\ scheduled (e :: tr) = scheduled tr /\ waiting (e :: tr) = waiting tr /\
    owned (e :: tr) = owned tr - wdest w /\ draining (e :: tr) = draining tr + wcli w /\ wsid w = [] /\ living (FLoop w) = true).
  { destruct Hw as [(-> & -> & _)|(-> & -> & _)]; cbn; repeat split; auto; lia. }
  destruct Hsel as (H1 & H2 & H3 & H4 & H5 & H6 & H7). openl I. pose proof (ncli_pos k).
  constructor; rewrite ?H1, ?H2, ?H3, ?H4, ?H5; rewrite ?(ndest_cons _ _ w), ?(ncli_cons _ _ w), ?(sids_cons _ _ w), ?H6 by auto; auto; cbn [app]; auto.
  - lia.
  - destruct Hw as [(-> & -> & ?)|(-> & -> & ? & ?)]; cbn [wcli wdest]; lia.
  - lia.
  - destruct Hw as [(-> & -> & ?)|(-> & -> & ? & ?)]; cbn [wcli wdest]; lia.
  - cbn [tl]. destruct k as [|f k]; auto. constructor; auto. destruct f; auto; destruct Hk.
  - intros id X. destruct (l_out0 id X) as [Y|(w' & k' & ->)]; auto. destruct Hk.
  - intros Hm X. destruct (l_ready0 Hm X) as [Y|(s & k' & ->)]; auto.
Qed.

(* line 180 *)
Lemma remove_live hm q v srcs n k ot tr id w : Liv hm (p_refs q) q v srcs n (FRemove id w :: k) ot tr -> In (id, false) srcs ->
  Liv hm (p_refs q - 1) q v (without srcs id) n (FRemoved w :: k) ot (EUnsource id :: tr).
Proof.
  intros I X. openl I.
  constructor; cbn [owned draining selflist scheduled waiting]; rewrite ?(ndest_cons _ _ w), ?(ncli_cons _ _ w), ?(sids_cons _ _ w) in * by auto; auto.
  - rewrite (len_without srcs id false) by auto. lia.
  - inversion l_who0; subst. constructor; auto.
  - apply nodup_without. auto.
  - intros i b Y. apply in_without in Y. destruct Y. eauto.
  - intros sid. rewrite <- l_in0, in_without. cbn [fst]. split; [tauto|]. intros Y. split; auto. intros ->. pose proof (same_bool _ _ _ _ l_nd0 X Y). discriminate.
  - intros Y. destruct l_rm0. congruence.
  - intros i Y. apply in_without in Y. cbn in Y. destruct Y as (Y & N). destruct (l_out0 i Y) as [Z0|(w' & k' & Z0)]; auto. congruence.
  - rewrite awake_without, l_sch0. reflexivity.
  - intros _ Y. destruct l_rm0. congruence.
Qed.

Lemma filter_all {A} (p : A -> bool) l : (forall x, In x l -> p x = true) -> filter p l = l.
Proof. induction l as [|a l IH]; cbn; auto. intros H. rewrite H by auto. f_equal. auto. Qed.
(* lines 214-216 on a wrong thread *)
Lemma other_live hm q v srcs n k0 ot tr u sid : Liv hm (p_refs q) q v srcs n k0 ot tr -> nth_error ot u = Some [FOther sid] ->
  Liv hm (p_refs q - 1) q v (without srcs sid) n k0 (upd ot u []) (EIdleEnd (S u) sid :: tr).
Proof.
  intros I E. destruct (focus _ _ _ E) as (R & HR). openl I.
  assert (Sp : Permutation (sids (concat ot)) (sid :: sids (concat (upd ot u [])))).
  { pose proof (HR [FOther sid]) as H0. rewrite (upd_same _ _ _ E) in H0. apply sids_perm in H0. cbn in H0. pose proof (HR []) as H1. apply sids_perm in H1. cbn in H1.
    rewrite H0. apply perm_skip. symmetry. auto. }
  assert (Sq : Permutation (sids k0 ++ sids (concat ot)) (sid :: sids k0 ++ sids (concat (upd ot u [])))).
  { rewrite Sp. symmetry. apply Permutation_middle. }
  assert (X : In (sid, true) srcs). { apply l_in0. rewrite Sq. cbn. auto. }
  assert (Nd : NoDup (sid :: sids k0 ++ sids (concat (upd ot u [])))) by (eapply Permutation_NoDup; eauto). inversion Nd as [|? ? Nx Nd']; subst.
  constructor; cbn [owned draining selflist scheduled waiting]; auto.
  - rewrite (len_without srcs sid true) by auto. lia.
  - rewrite Forall_forall in *. intros x Y. apply In_nth_error in Y. destruct Y as (j & Y). destruct (Nat.eq_dec j u) as [->|N].
    + rewrite (upd_here _ _ _ _ E) in Y. injection Y as <-. left. auto.
    + rewrite nth_error_upd_ne in Y by auto. apply l_ot0. eapply nth_error_In; eauto.
  - apply nodup_without. auto.
  - intros i b Y. apply in_without in Y. destruct Y. eauto.
  - intros s. rewrite in_without, l_in0, (perm_in _ _ s Sq). cbn [fst In]. split.
    + intros ([->|Y] & N); [congruence|auto].
    + intros Y. split; auto. intros ->. contradiction.
  - intros Y. apply in_without. split; auto. cbn. intros Z0. specialize (l_idle0 Y). rewrite Z0 in l_idle0. pose proof (same_bool _ _ _ _ l_nd0 X l_idle0). discriminate.
  - intros i Y. apply in_without in Y. destruct Y as (Y & N). auto.
  - rewrite awake_without, l_sch0. symmetry. apply filter_all. intros j Y. apply awake_in in Y. destruct (Nat.eqb_spec j sid) as [->|]; auto. pose proof (same_bool _ _ _ _ l_nd0 X Y). discriminate.
Qed.

Lemma wait_first h q ks tr P : INV h (Some q) ks tr P -> (p_first q = None <-> waiting tr = []).
Proof.
  intros I. open I. destruct i_pool0 as (L & _). destruct (waiting tr) as [|a l]; cbn in L; [tauto|]. destruct L as (L & _). split; congruence.
Qed.
Lemma self_in h oq ks tr P t items a w k it : INV h oq ks tr P -> nth_error ks t = Some (FBatch items (Some a) w :: k) -> nth_error h a = Some (Some it) -> it_kind it = KSelf -> selflist tr <> [].
Proof.
  intros I E N K. destruct (INV_destroy _ _ _ _ _ _ _ _ _ _ I E) as (it' & N' & Hf). rewrite N in N'. injection N' as <-.
  destruct (Hf _ (or_introl eq_refl)) as (P' & I'). pose proof (i_good _ _ _ _ _ I') as G. cbn in G. destruct G as ((_ & Ia & Nd) & G). rewrite K in Ia.
  destruct (selflist_spec tr G) as (_ & S1). intros X. assert (Y : In a (selflist tr)) by (apply S1; eauto). rewrite X in Y. destruct Y.
Qed.

(* the pool is being finalised *)
Lemma final_sane hm s x q t f : inv s -> s_pool s = Some q -> p_refs q = 0 -> p_idle q = 0%nat -> nth_error (s_stacks s) t = Some [f] -> finalf f = true ->
  (forall u k, u <> t -> nth_error (s_stacks s) u = Some k -> k = []) -> over (s_srcs s) (s_var s) (s_trace s) -> clean (s_trace s) ->
  (hm = true -> waiting (s_trace s) = []) -> fair s x -> exists s', step s x = Ok s' /\ sane hm s'.
Proof.
  intros Iv Eq Er Ei Et Ff Oth Ov C Hw Fr. assert (Sm : sane hm s) by (eapply final; eauto). destruct x as (u & a).
  destruct s as [h oq v srcs n ks tr]. cbn [s_heap s_pool s_var s_srcs s_next s_stacks s_trace] in Eq, Et, Oth, Ov, C, Hw. subst oq. destruct Iv as (P & I). cbn in I.
  assert (Nu : usable (State h (Some q) v srcs n ks tr) -> False). { unfold usable. cbn. intros [X|X]; destruct Ov as (_ & O1 & _ & _ & O2 & _); [lia|auto]. }
  assert (No : 1 <= owned tr -> False). { intros X. apply Nu. left. cbn. auto. }
  assert (Fin : forall h' q' f' tr', p_refs q' = 0 -> p_idle q' = 0%nat -> finalf f' = true -> over srcs v tr' -> clean tr' -> (hm = true -> waiting tr' = []) ->
    sane hm (State h' (Some q') v srcs n (upd ks t [f']) tr')).
  { intros h' q' f' tr' X1 X2 X3 X4 X5 X6. eapply (final hm _ q' t f'); flat; auto.
    - eapply upd_here; eauto.
    - intros u' k Nu' Ek. rewrite nth_error_upd_ne in Ek by auto. eauto. }
  assert (Var : forall v', v' <> VThis -> sane hm (State h (Some q) v' srcs n ks tr)).
  { intros v' X. eapply (final hm _ q t f); flat; auto. unfold over in *. tauto. }
  assert (Vv : v <> VThis) by (unfold over in Ov; tauto).
  assert (Es : srcs = []) by (unfold over in Ov; tauto).
  assert (Cli : forall k, nth_error ks u = Some k -> match k with [] | FCb _ _ _ :: _ => True | _ => False end -> a <> AReturn ->
     exists s', step (State h (Some q) v srcs n ks tr) (u, a) = Ok s' /\ sane hm s').
  { intros k Ek Hk Na. unfold step. flat. rewrite Ek. assert (Cl : exists s', (match a with
      | AStep => Ok (State h (Some q) v srcs n ks tr)
      | ACall c => do_call (State h (Some q) v srcs n ks tr) u c k
      | AReturn => Fail NoFuel
      | ADispatch sid => dispatch (State h (Some q) v srcs n ks tr) u sid k
      | AGet => Ok (match v with VNull => set_var (State h (Some q) v srcs n ks tr) VOther | _ => State h (Some q) v srcs n ks tr end)
      | AOtherGone => Ok (match v with VOther => set_var (State h (Some q) v srcs n ks tr) VNull | _ => State h (Some q) v srcs n ks tr end)
      end) = Ok s' /\ sane hm s').
    { destruct a as [|c| |sid| | ].
      - eauto.
      - exfalso. destruct c; cbn in Fr; tauto.
      - congruence.
      - unfold dispatch. flat. rewrite Es. cbn [existsb]. rewrite <- Es. eauto.
      - eexists. split; [reflexivity|]. destruct v; flat; auto. apply Var. discriminate.
      - eexists. split; [reflexivity|]. destruct v; flat; auto. apply Var. discriminate. }
    destruct k as [|g k]; [|destruct g; try contradiction]; destruct a; auto; congruence. }
  destruct (Nat.eq_dec u t) as [->|Nut].
  2:{ destruct (nth_error ks u) as [k|] eqn:Ek.
      - pose proof (Oth u k Nut Ek) as ->. destruct a; try (apply (Cli []); [reflexivity|exact Logic.I|discriminate]). unfold step; flat; rewrite ?Ek; eauto.
      - unfold step; flat; rewrite ?Ek; eauto. }
  destruct f as [w|items item w|items item w|items item w|id w|w|sid]; try discriminate; destruct w; try discriminate.
  - unfold step; flat; rewrite ?Et. destruct a; eauto. unfold loop. flat. destruct (p_first q) as [b|] eqn:Ep.
    + eexists. split; [reflexivity|]. apply Fin; auto.
    + rewrite Ei. cbn [Nat.eqb]. unfold drain_end. flat. eexists. split; [reflexivity|]. destruct (wait_first _ _ _ _ _ I) as (W & _). specialize (W Ep).
      assert (Cm : Forall (fun k : list frame => k = []) (upd ks t [])).
      { rewrite Forall_forall. intros k Ik. apply In_nth_error in Ik. destruct Ik as (j & Ik). destruct (Nat.eq_dec j t) as [->|N].
        - rewrite (upd_here _ _ _ _ Et) in Ik. congruence.
        - rewrite nth_error_upd_ne in Ik by auto. eauto. }
      apply gone; flat; auto.
      * cbn. split; auto. split; auto. unfold over in Ov. tauto.
      * intros a0 Ha. destruct (INV_focus _ _ _ _ _ _ _ _ I Et) as (D & P' & R & I' & HR & HP). open I'.
        assert (P' = []) as ->. { assert (X : concat (upd ks t []) = []). { clear - Cm. induction Cm as [|k l E F IH]; auto. cbn. rewrite E, IH. auto. }
          rewrite (HR []) in HP || (pose proof (HR []) as HR0; rewrite X in HR0). cbn in HR0. apply Permutation_nil in HR0. rewrite HR0 in HP. cbn in HP. apply Permutation_sym in HP. apply Permutation_nil in HP. destruct P'; [auto|discriminate]. }
        specialize (i_live0 a0 Ha). rewrite W in i_live0. inversion i_items0 as [|? ? Fp _]; subst. cbn in Fp, i_live0. subst D. destruct i_live0.
  - unfold step; flat; rewrite ?Et. destruct a; eauto. unfold batch. flat. destruct item as [b|].
    + destruct (INV_destroy _ _ _ _ _ _ _ _ _ _ I Et) as (it & N & _). rewrite (get_ok _ _ _ N). flat. destruct (it_kind it) eqn:Ek.
      * eexists. split; [reflexivity|]. apply Fin; auto.
      * exfalso. eapply (self_in _ _ _ _ _ _ _ _ _ _ _ I Et N Ek). unfold over in Ov. tauto.
    + destruct (INV_free _ _ _ _ _ _ _ _ _ I Et) as (h' & Ec & _). rewrite Ec. flat. eexists. split; [reflexivity|]. apply Fin; auto.
  - assert (Da : a = AReturn \/ a <> AReturn) by (destruct a; auto; right; discriminate). destruct Da as [->|Na]; [|apply (Cli [FCb items item WFinal]); [exact Et|exact Logic.I|exact Na]].
    unfold step; flat; rewrite ?Et. unfold next_item. flat.
    destruct (INV_next _ _ _ _ _ _ _ _ _ _ _ I Et (or_introl eq_refl)) as (it & N & _). rewrite (get_ok _ _ _ N). flat. eexists. split; [reflexivity|]. apply Fin; auto.
Qed.

Lemma gone_sane hm s x : s_pool s = None -> calm s -> over (s_srcs s) (s_var s) (s_trace s) -> clean (s_trace s) -> waiting (s_trace s) = [] ->
  (forall a, ~ alive (s_heap s) a) -> fair s x -> exists s', step s x = Ok s' /\ sane hm s'.
Proof.
  intros Eq Cm Ov C W Al Fr. assert (Sm : sane hm s) by (apply gone; auto). destruct x as (u & a). destruct s as [h oq v srcs n ks tr]. unfold calm in Cm. cbn in *. subst oq.
  assert (No : 1 <= owned tr -> False). { unfold over in Ov. lia. }
  assert (Nu : usable (State h None v srcs n ks tr) -> False). { unfold usable. cbn. intros [X|X]; [lia|]. unfold over in Ov. tauto. }
  destruct (nth_error ks u) as [k|] eqn:Ek; [|eauto]. assert (k = []) as ->. { rewrite Forall_forall in Cm. apply Cm. eapply nth_error_In; eauto. }
  destruct a as [|c| |sid| | ]; eauto.
  - exfalso. destruct c; cbn in Fr; tauto.
  - unfold dispatch. flat. assert (Es : srcs = []) by (unfold over in Ov; tauto). rewrite Es. cbn [existsb]. rewrite <- Es. eauto.
  - eexists. split; [reflexivity|]. destruct v; auto. apply gone; flat; auto. unfold over in *. intuition discriminate.
  - eexists. split; [reflexivity|]. destruct v; auto. apply gone; flat; auto. unfold over in *. intuition discriminate.
Qed.

Lemma var_live hm r q v v' srcs n k0 ot tr : Liv hm r q v srcs n k0 ot tr -> (v = VThis <-> v' = VThis) -> Liv hm r q v' srcs n k0 ot tr.
Proof. intros I H. openl I. constructor; auto. rewrite <- H. auto. Qed.
Lemma find_src srcs id : match find (fun x : nat * bool => Nat.eqb (fst x) id) srcs with Some (i, b) => In (id, b) srcs | None => forall b, ~ In (id, b) srcs end.
Proof.
  destruct (find _ srcs) as [(i & b)|] eqn:E.
  - apply find_some in E. destruct E as (X & E). cbn in E. apply Nat.eqb_eq in E. subst i. auto.
  - intros b X. pose proof (find_none _ _ E _ X) as Y. cbn in Y. rewrite Nat.eqb_refl in Y. discriminate.
Qed.

(* the client acts on thread t *)
Lemma client_sane hm h q v srcs n k0 ot tr t k a P : INV h (Some q) (k0 :: ot) tr P -> Liv hm (p_refs q) q v srcs n k0 ot tr -> 0 < p_refs q -> clean tr ->
  nth_error (k0 :: ot) t = Some k -> match k with [] | FCb _ _ _ :: _ => True | _ => False end ->
  careful (State h (Some q) v srcs n (k0 :: ot) tr) (t, a) -> (hm = true -> home (State h (Some q) v srcs n (k0 :: ot) tr) (t, a)) -> a <> AReturn ->
  exists s', step (State h (Some q) v srcs n (k0 :: ot) tr) (t, a) = Ok s' /\ sane hm s'.
Proof.
  intros I Lv Pr C Ek Hk (Fr & Cf) Hh Na.
  assert (Sm : sane hm (State h (Some q) v srcs n (k0 :: ot) tr)) by (eapply (live hm _ q k0 ot); eauto).
  assert (Cl : exists s', (match a with
      | AStep => Ok (State h (Some q) v srcs n (k0 :: ot) tr)
      | ACall c => do_call (State h (Some q) v srcs n (k0 :: ot) tr) t c k
      | AReturn => Fail NoFuel
      | ADispatch sid => dispatch (State h (Some q) v srcs n (k0 :: ot) tr) t sid k
      | AGet => Ok (match v with VNull => set_var (State h (Some q) v srcs n (k0 :: ot) tr) VOther | _ => State h (Some q) v srcs n (k0 :: ot) tr end)
      | AOtherGone => Ok (match v with VOther => set_var (State h (Some q) v srcs n (k0 :: ot) tr) VNull | _ => State h (Some q) v srcs n (k0 :: ot) tr end)
      end) = Ok s' /\ sane hm s').
  { destruct a as [|c| |sid| | ].
    - eauto.
    - destruct c as [data| | | | ]; cbn [do_call]; cbn in Fr, Cf.
      + destruct Fr as (-> & _). cbn in Ek. injection Ek as ->. eapply add_sane; eauto.
      + flat. eexists. split; [reflexivity|]. apply ref_sane; auto.
      + flat. eapply unref_sane; eauto.
      + destruct Fr as (-> & _). cbn in Ek. injection Ek as ->. flat. eexists. split; [reflexivity|]. cbn [upd]. apply push_sane; auto.
      + destruct Fr as (-> & Ho). cbn in Ek. injection Ek as ->. flat. eexists. split; [reflexivity|]. cbn [upd]. apply push_sane; auto 10.
    - congruence.
    - eapply dispatch_sane; eauto.
    - eexists. split; [reflexivity|]. destruct v; auto. flat. eapply (live hm _ q k0 ot); flat; auto. eapply var_live; eauto. split; discriminate.
    - eexists. split; [reflexivity|]. destruct v; auto. flat. eapply (live hm _ q k0 ot); flat; auto. eapply var_live; eauto. split; discriminate. }
  unfold step. flat. rewrite Ek. destruct k as [|g k]; [|destruct g; try contradiction]; destruct a; auto; congruence.
Qed.

Lemma live_sane hm s x q k0 ot : inv s -> s_pool s = Some q -> s_stacks s = k0 :: ot -> 0 < p_refs q -> Liv hm (p_refs q) q (s_var s) (s_srcs s) (s_next s) k0 ot (s_trace s) ->
  clean (s_trace s) -> careful s x -> (hm = true -> home s x) -> exists s', step s x = Ok s' /\ sane hm s'.
Proof.
  intros (P & I) Eq Es Pr Lv C Cf Hh. destruct x as (t & a). destruct s as [h oq v srcs n ks tr]. cbn [s_heap s_pool s_var s_srcs s_next s_stacks s_trace] in *. subst oq ks.
  assert (Sm : sane hm (State h (Some q) v srcs n (k0 :: ot) tr)) by (eapply (live hm _ q k0 ot); eauto).
  assert (Da : a = AReturn \/ a <> AReturn) by (destruct a; auto; right; discriminate).
  destruct t as [|u].
  - destruct k0 as [|f k].
    { destruct Da as [->|Na]; [cbn; eauto|]. eapply (client_sane hm h q v srcs n [] ot tr 0 []); eauto. }
    destruct f as [w|items item w|items item w|items item w|id w|w|sid].
    + unfold step. cbn [s_stacks nth_error]. destruct a; eauto. unfold loop. flat. destruct (p_first q) as [b|] eqn:Ef.
      * eexists. split; [reflexivity|]. cbn [upd]. eapply (live hm _ (set_ends q None None) (FBatch b (Some b) w :: k) ot); flat; auto.
        apply (Liv_swap hm (p_refs q) q v srcs n (FLoop w) k ot tr _ _ _ _ w); cbn; auto; try congruence.
        intros i _ [X|X]; [auto|discriminate].
      * pose proof (proj1 (wait_first _ _ _ _ _ I) Ef) as W. destruct (Nat.eqb_spec (p_idle q) 0) as [Ez|Nz].
        { eapply (end_sane hm h q v srcs n (FLoop w) k ot tr w); eauto. discriminate. }
        eexists. split; [reflexivity|]. cbn [upd]. eapply (live hm _ (set_idle q 0) (FRemove (p_idle q) w :: k) ot); flat; auto.
        apply (Liv_swap hm (p_refs q) q v srcs n (FLoop w) k ot tr _ _ _ _ w); cbn; auto; try congruence.
        intros i _ [X|X]; [right; congruence|discriminate].
    + unfold step. cbn [s_stacks nth_error]. destruct a; eauto. unfold batch. flat. destruct item as [b|].
      * destruct (INV_destroy _ _ _ _ _ 0%nat _ _ _ _ I eq_refl) as (it & N & Hf). rewrite (get_ok _ _ _ N). flat. destruct (it_kind it) eqn:Ek.
        { eexists. split; [reflexivity|]. cbn [upd]. eapply (live hm _ q (FCb items b w :: k) ot); flat; auto.
          apply (Liv_swap hm (p_refs q) q v srcs n (FBatch items (Some b) w) k ot tr _ _ _ _ w); cbn; auto; try congruence.
          intros i _ [X|X]; [auto|discriminate]. }
        destruct (Hf _ (or_introl eq_refl)) as (P' & I'). pose proof (i_good _ _ _ _ _ I') as G. pose proof (selflist_destroy _ _ _ _ G) as Sl.
        apply (drop_live hm h q v srcs n ((FBatch items (Some b) w :: k) :: ot) (EDestroy 0 b (it_data it) KSelf :: tr) 0 (FSelf items b w :: k) (FSelf items b w :: k) ot); cbn [length]; auto; [lia|].
        apply (Liv_swap hm (p_refs q) q v srcs n (FBatch items (Some b) w) k ot tr _ _ _ _ w); cbn [wof isrm loopidle owned draining scheduled waiting]; auto; try congruence; try lia.
        intros i _ [X|X]; [auto|discriminate].
      * destruct (INV_free _ _ _ _ _ 0%nat _ _ _ I eq_refl) as (h' & Ec & _). rewrite Ec. flat. eexists. split; [reflexivity|]. cbn [upd].
        eapply (live hm _ q (FLoop w :: k) ot); flat; auto.
        apply (Liv_swap hm (p_refs q) q v srcs n (FBatch items None w) k ot tr _ _ _ _ w); cbn; auto; try congruence.
        intros i _ [X|X]; [auto|discriminate].
    + destruct Da as [->|Na].
      2:{ eapply (client_sane hm h q v srcs n (FCb items item w :: k) ot tr 0 (FCb items item w :: k)); eauto; exact Logic.I. }
      unfold step. cbn [s_stacks nth_error]. unfold next_item. flat. destruct (INV_next _ _ _ _ _ 0%nat _ _ _ _ _ I eq_refl (or_introl eq_refl)) as (it & N & _). rewrite (get_ok _ _ _ N). flat.
      eexists. split; [reflexivity|]. cbn [upd]. eapply (live hm _ q (FBatch items (it_next it) w :: k) ot); flat; auto.
      apply (Liv_swap hm (p_refs q) q v srcs n (FCb items item w) k ot tr _ _ _ _ w); cbn; auto; try congruence.
      intros i _ [X|X]; [auto|discriminate].
    + unfold step. cbn [s_stacks nth_error]. destruct a; eauto. unfold next_item. flat.
      destruct (INV_next _ _ _ _ _ 0%nat _ _ _ _ _ I eq_refl (or_intror eq_refl)) as (it & N & _). rewrite (get_ok _ _ _ N). flat.
      eexists. split; [reflexivity|]. cbn [upd]. eapply (live hm _ q (FBatch items (it_next it) w :: k) ot); flat; auto.
      apply (Liv_swap hm (p_refs q) q v srcs n (FSelf items item w) k ot tr _ _ _ _ w); cbn; auto; try congruence.
      intros i _ [X|X]; [auto|discriminate].
    + unfold step. cbn [s_stacks nth_error]. destruct a; eauto. unfold remove. flat. pose proof (find_src srcs id) as F. pose proof (l_rm _ _ _ _ _ _ _ _ _ Lv) as (W & Z0).
      pose proof (l_nd _ _ _ _ _ _ _ _ _ Lv) as Nd. destruct (find _ srcs) as [(i & [|])|].
      * eexists. split; [reflexivity|]. cbn [upd]. eapply (live hm _ q (FRemoved w :: k) ot); flat; auto.
        apply (Liv_swap hm (p_refs q) q v srcs n (FRemove id w) k ot tr _ _ _ _ w); cbn; auto; try congruence.
        intros j Y [X|X]; [auto|]. injection X as ->. pose proof (same_bool _ _ _ _ Nd F Y). discriminate.
      * apply (drop_live hm h q v (without srcs id) n ((FRemove id w :: k) :: ot) (EUnsource id :: tr) 0 (FRemoved w :: k) (FRemoved w :: k) ot); cbn [length]; auto; [lia|].
        apply remove_live; auto.
      * eexists. split; [reflexivity|]. cbn [upd]. eapply (live hm _ q (FRemoved w :: k) ot); flat; auto.
        apply (Liv_swap hm (p_refs q) q v srcs n (FRemove id w) k ot tr _ _ _ _ w); cbn; auto; try congruence.
        intros j Y [X|X]; [auto|]. injection X as ->. destruct (F _ Y).
    + unfold step. cbn [s_stacks nth_error]. destruct a; eauto. pose proof (l_rm _ _ _ _ _ _ _ _ _ Lv) as (W & Z0).
      eapply (end_sane hm h q v srcs n (FRemoved w) k ot tr w); eauto. discriminate.
    + exfalso. pose proof (l_who _ _ _ _ _ _ _ _ _ Lv) as X. inversion X as [|? ? Y _]. discriminate.
  - destruct (nth_error ot u) as [k|] eqn:Eu.
    2:{ unfold step. cbn [s_stacks nth_error]. rewrite Eu. eauto. }
    assert (Rk : resting k). { pose proof (l_ot _ _ _ _ _ _ _ _ _ Lv) as X. rewrite Forall_forall in X. apply X. eapply nth_error_In; eauto. }
    destruct Rk as [->|(sid & ->)].
    + destruct Da as [->|Na]; [unfold step; cbn [s_stacks nth_error]; rewrite Eu; eauto|]. eapply (client_sane hm h q v srcs n k0 ot tr (S u) []); eauto.
    + unfold step. cbn [s_stacks nth_error]. rewrite Eu. destruct a; eauto. unfold idle_end. flat.
      apply (drop_live hm h q v (without srcs sid) n (k0 :: ot) (EIdleEnd (S u) sid :: tr) (S u) [] k0 (upd ot u [])); auto.
      * cbn [length]. pose proof (nth_error_lt _ _ _ Eu). lia.
      * apply other_live; auto.
Qed.

Theorem step_sane hm s x : inv s -> sane hm s -> careful s x -> (hm = true -> home s x) -> exists s', step s x = Ok s' /\ sane hm s'.
Proof.
  intros I Sn Cf Hh. destruct Sn.
  - eapply live_sane; eauto.
  - eapply final_sane; eauto. apply Cf.
  - eapply gone_sane; eauto. apply Cf.
Qed.
Lemma starts_sane s : starts s -> sane true s.
Proof.
  intros (n & [-> |E]).
  - eapply (live true _ _ [] (repeat [] n)); try reflexivity.
    constructor; cbn; auto; try lia; try (intros; contradiction).
    + apply Forall_forall. intros x X. apply repeat_spec in X. left. auto.
    + constructor.
    + intros sid. assert (concat (repeat ([] : list frame) n) = []) as -> by (induction n; auto). cbn. tauto.
    + assert (concat (repeat ([] : list frame) n) = []) as -> by (induction n; auto). constructor.
    + split; discriminate.
  - destruct (shared_start n) as (s' & E' & ->). rewrite E' in E. injection E as <-. clear E'.
    eapply (live true _ _ [] (repeat [] n)); try reflexivity.
    assert (Cc : concat (repeat ([] : list frame) n) = []) by (induction n; auto).
    constructor; cbn; rewrite ?Cc; auto; try lia; try (intros; contradiction).
    + apply Forall_forall. intros x X. apply repeat_spec in X. left. auto.
    + constructor; [intros []|constructor].
    + intros id b [X|[]]. injection X as <- <-. lia.
    + intros sid. cbn. split; [intros [X|[]]; discriminate|tauto].
    + constructor.
    + intros id [X|[]]. injection X as <-. auto.
    + tauto.
Qed.
Lemma sane_weak s : sane true s -> sane false s.
Proof.
  intros [q k0 ot E1 E2 E3 L C|q t f E1 E2 E3 E4 E5 E6 O C W|E1 E2 E3 E4 E5 E6].
  - eapply (live false _ q k0 ot); eauto. openl L. constructor; auto; discriminate.
  - eapply (final false _ q t f); eauto.
  - apply gone; auto.
Qed.
Theorem run_sane hm l : forall s, inv s -> sane hm s -> all_along careful s l -> (hm = true -> all_along home s l) -> exists s', run s l = Ok s' /\ sane hm s' /\ inv s'.
Proof.
  induction l as [|x l IH]; intros s I Sn Cf Hh; cbn [run]; [eauto|]. destruct Cf as (C1 & C2).
  destruct (step_sane hm s x I Sn C1) as (s1 & E & Sn1). { intros Hm. apply Hh; auto. }
  rewrite E in *. cbn [bind]. destruct (step_fine s x I) as [(s2 & E2 & I2)|(f & E2 & _)]; [|congruence]. rewrite E in E2. injection E2 as <-.
  apply IH; auto. intros Hm. specialize (Hh Hm). cbn in Hh. rewrite E in Hh. apply Hh.
Qed.
