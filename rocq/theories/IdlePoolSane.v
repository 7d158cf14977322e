(* The references of the idle pool when the client is careful *)
From Verif Require Import Base IdlePoolModel IdlePoolSpec IdlePoolProofs IdlePoolInv IdlePoolStep.
From Coq Require Import Permutation.

(* ---------------- the references of the pool to itself ---------------- *)
Fixpoint selflist (tr : list event) : list nat :=
  match tr with
  | [] => []
  | EAdd i _ KSelf :: tr => i :: selflist tr
  | EDestroy _ i _ KSelf :: tr => filter (fun j => negb (Nat.eqb j i)) (selflist tr)
  | _ :: tr => selflist tr
  end.
Lemma add_unique tr i d k d' k' : good tr -> In (EAdd i d k) tr -> In (EAdd i d' k') tr -> d = d' /\ k = k'.
Proof.
  induction tr as [|e tr IH]; cbn; [tauto|]. intros (Lg & G) [-> |I] [E|I'].
  - injection E; auto.
  - exfalso. apply Lg. exists d', k'. auto.
  - subst e. exfalso. apply Lg. exists d, k. auto.
  - auto.
Qed.
Lemma selflist_spec tr : good tr -> NoDup (selflist tr) /\ forall i, In i (selflist tr) <-> (exists d, In (EAdd i d KSelf) tr) /\ ~ destroyed i tr.
Proof.
  induction tr as [|e tr IH]; cbn [good]. { intros _. split; [constructor|]. intros i. split; [intros []|intros ((d & []) & _)]. }
  intros (Lg & G). destruct (IH G) as (N & S1).
  assert (Other : selflist (e :: tr) = selflist tr -> (forall i d, e <> EAdd i d KSelf) -> (forall t i d, e <> EDestroy t i d KSelf) ->
    NoDup (selflist (e :: tr)) /\ forall i, In i (selflist (e :: tr)) <-> (exists d, In (EAdd i d KSelf) (e :: tr)) /\ ~ destroyed i (e :: tr)).
  { intros -> H1 H2. split; auto. intros i. rewrite S1. split.
    - intros ((d & I) & D). split; [exists d; cbn; auto|]. intros X. apply destroyed_cons in X. destruct X as [(t & d' & k & ->)|X]; auto.
      destruct Lg as (_ & I' & _). destruct (add_unique _ _ _ _ _ _ G I I') as (_ & <-). apply (H2 t i d'). reflexivity.
    - intros ((d & I) & D). split; [exists d; destruct I as [I|I]; auto; destruct (H1 i d I)|]. intros X. apply D, destroyed_cons. auto. }
  destruct e as [ | |j dt kd|u|u|u j dt kd|u|u|u w|u sid|u sid|sid|sid|sid| | | | | ]; try (apply Other; [reflexivity|discriminate|discriminate]).
  - destruct kd; [apply Other; [reflexivity|discriminate|discriminate]|]. clear Other. cbn [selflist]. cbn in Lg. split.
    + constructor; auto. intros I. apply S1 in I. destruct I as ((d & I) & _). apply Lg. exists d, KSelf. auto.
    + intros i. cbn [In]. rewrite S1. split.
      * intros [<-|((d & I) & D)].
        { split; [eauto|]. intros X. apply destroyed_cons in X. destruct X as [(t & d' & k & X)|X]; [discriminate|]. apply Lg. apply destroyed_added; auto. }
        split; [eauto|]. intros X. apply destroyed_cons in X. destruct X as [(t & d' & k & X)|X]; [discriminate|]. auto.
      * intros ((d & [E|I]) & D); [left; congruence|]. right. split; [eauto|]. intros X. apply D, destroyed_cons. auto.
  - destruct kd; [apply Other; [reflexivity|discriminate|discriminate]|]. clear Other. cbn [selflist]. destruct Lg as (_ & La & Ld). split; [apply NoDup_filter; auto|].
    intros i. rewrite filter_In, S1. split.
    + intros (((d & I) & D) & E). split; [exists d; cbn; auto|]. intros X. apply destroyed_cons in X. destruct X as [(t & d' & k & X)|X]; auto.
      injection X as _ -> _ _. rewrite Nat.eqb_refl in E. discriminate.
    + intros ((d & [X|I]) & D); [discriminate|]. split; [split; [eauto|]|].
      * intros X. apply D, destroyed_cons. auto.
      * destruct (Nat.eqb_spec i j) as [->|]; auto. exfalso. apply D, destroyed_cons. left. eauto.
Qed.
Lemma filter_out (l : list nat) i : NoDup l -> In i l -> len (filter (fun j => negb (Nat.eqb j i)) l) = len l - 1.
Proof.
  induction l as [|x l IH]; [intros _ []|]. intros N I. inversion N as [|? ? Nx N']; subst. cbn [filter]. destruct (Nat.eqb_spec x i) as [->|Nx'].
  - cbn [negb]. assert (filter (fun j => negb (Nat.eqb j i)) l = l) as ->.
    { clear - Nx. induction l as [|y l IH]; auto. cbn. destruct (Nat.eqb_spec y i) as [->|]; cbn; [destruct Nx; cbn; auto|]. f_equal. apply IH. intros I. apply Nx. cbn. auto. }
    unfold len. cbn [length]. lia.
  - cbn [negb]. destruct I as [->|I]; [congruence|]. specialize (IH N' I). unfold len in *. cbn [length]. lia.
Qed.
Lemma selflist_destroy tr t i d : good (EDestroy t i d KSelf :: tr) -> len (selflist (EDestroy t i d KSelf :: tr)) = len (selflist tr) - 1.
Proof.
  intros (Lg & G). cbn [selflist]. destruct (selflist_spec tr G) as (N & S1). apply filter_out; auto. apply S1. destruct Lg as (_ & I & D). eauto.
Qed.

(* ---------------- the sources ---------------- *)
Lemma in_without l id x : In x (without l id) <-> In x l /\ fst x <> id.
Proof. unfold without. rewrite filter_In. destruct (Nat.eqb_spec (fst x) id) as [E|E]; cbn; split; intros (A & B); auto; congruence. Qed.
Lemma nodup_without l id : NoDup (map fst l) -> NoDup (map fst (without l id)).
Proof.
  induction l as [|x l IH]; cbn; auto. intros N. inversion N; subst. destruct (Nat.eqb (fst x) id); cbn; auto. constructor; auto.
  intros I. apply in_map_iff in I. destruct I as (y & E & I). apply in_without in I. apply H1. rewrite <- E. apply in_map. tauto.
Qed.
Lemma len_without l id b : NoDup (map fst l) -> In (id, b) l -> len (without l id) = len l - 1.
Proof.
  induction l as [|x l IH]; [intros _ []|]. intros N I. cbn in N. inversion N as [|? ? Nx N']; subst. cbn [without filter]. destruct (Nat.eqb_spec (fst x) id) as [E|Nx'].
  - cbn [negb]. assert (filter (fun x => negb (Nat.eqb (fst x) id)) l = l) as ->.
    { clear - Nx E. induction l as [|y l IH]; auto. cbn in *. destruct (Nat.eqb_spec (fst y) id) as [Ey|]; cbn; [destruct Nx; left; congruence|]. f_equal. apply IH. intros I. apply Nx. auto. }
    unfold len. cbn [length]. lia.
  - cbn [negb]. destruct I as [->|I]; [cbn in Nx'; congruence|]. specialize (IH N' I). unfold without, len in *. cbn [length]. lia.
Qed.
Definition awake (l : list (nat * bool)) : list nat := map fst (filter (fun x => negb (snd x)) l).
Lemma awake_in l id : In id (awake l) <-> In (id, false) l.
Proof.
  unfold awake. rewrite in_map_iff. split.
  - intros ((i & b) & <- & I). apply filter_In in I. destruct I as (I & E). destruct b; [discriminate|]. auto.
  - intros I. exists (id, false). split; auto. apply filter_In. auto.
Qed.
Lemma awake_without l id : awake (without l id) = filter (fun j => negb (Nat.eqb j id)) (awake l).
Proof.
  unfold awake, without. induction l as [|(i & b) l IH]; auto. cbn. destruct (Nat.eqb_spec i id) as [->|N]; destruct b; cbn; rewrite ?IH; auto.
  - rewrite Nat.eqb_refl. auto.
  - destruct (Nat.eqb_spec i id); [contradiction|]. reflexivity.
Qed.
Definition start_call (l : list (nat * bool)) (sid : nat) : list (nat * bool) := map (fun x => if Nat.eqb (fst x) sid then (fst x, true) else x) l.
Lemma start_fst l sid : map fst (start_call l sid) = map fst l.
Proof. unfold start_call. rewrite map_map. apply map_ext. intros (i & b). cbn. destruct (Nat.eqb i sid); auto. Qed.
Lemma start_in l sid i b : In (i, b) (start_call l sid) <-> (i <> sid /\ In (i, b) l) \/ (i = sid /\ b = true /\ In sid (map fst l)).
Proof.
  unfold start_call. rewrite in_map_iff. split.
  - intros ((j & c) & E & I). cbn in E. destruct (Nat.eqb_spec j sid) as [->|N].
    + injection E as <- <-. right. repeat split; auto. apply in_map_iff. exists (sid, c). auto.
    + injection E as <- <-. auto.
  - intros [(N & I)|(-> & -> & I)].
    + exists (i, b). cbn. destruct (Nat.eqb_spec i sid); [contradiction|]. auto.
    + apply in_map_iff in I. destruct I as ((j & c) & E & I). cbn in E. subst j. exists (sid, c). cbn. rewrite Nat.eqb_refl. auto.
Qed.
Lemma start_awake l sid : awake (start_call l sid) = filter (fun j => negb (Nat.eqb j sid)) (awake l).
Proof.
  unfold awake, start_call. induction l as [|(i & b) l IH]; auto. cbn. destruct (Nat.eqb_spec i sid) as [->|N]; cbn.
  - rewrite IH. destruct b; cbn; auto. rewrite Nat.eqb_refl. auto.
  - destruct b; cbn; rewrite IH; auto. destruct (Nat.eqb_spec i sid); [contradiction|]. reflexivity.
Qed.
Lemma same_bool (l : list (nat * bool)) i b c : NoDup (map fst l) -> In (i, b) l -> In (i, c) l -> b = c.
Proof.
  induction l as [|x l IH]; [intros _ []|]. cbn. intros N [-> |I] [E|I']; inversion N; subst; auto.
  - congruence.
  - exfalso. apply H1. apply in_map_iff. exists (i, c). auto.
  - exfalso. apply H1. apply in_map_iff. exists (i, b). auto.
Qed.

(* ---------------- who is in progress ---------------- *)
Definition wof (f : frame) : option caller :=
  match f with FLoop w | FBatch _ _ w | FCb _ _ w | FSelf _ _ w | FRemove _ w | FRemoved w => Some w | FOther _ => None end.
Definition iscb (f : frame) : bool := match f with FCb _ _ _ => true | _ => false end.
Definition wsid (w : caller) : list nat := match w with WIdle sid => [sid] | _ => [] end.
Definition sidf (f : frame) : list nat := match f with FOther sid => [sid] | _ => match wof f with Some w => wsid w | None => [] end end.
Definition sids (k : list frame) : list nat := flat_map sidf k.
Definition ncli (k : list frame) : Z := len (filter (fun f => match wof f with Some WClient => true | _ => false end) k).
Definition ndest (k : list frame) : Z := len (filter (fun f => match wof f with Some WDestroy => true | _ => false end) k).
Definition living (f : frame) : bool := match wof f with Some WFinal | None => false | _ => true end.

Definition wcli (w : caller) : Z := match w with WClient => 1 | _ => 0 end.
Definition wdest (w : caller) : Z := match w with WDestroy => 1 | _ => 0 end.
Lemma ncli_cons f k w : wof f = Some w -> ncli (f :: k) = wcli w + ncli k.
Proof. intros E. unfold ncli, len. cbn [filter]. rewrite E. destruct w; cbn [length wcli]; lia. Qed.
Lemma ndest_cons f k w : wof f = Some w -> ndest (f :: k) = wdest w + ndest k.
Proof. intros E. unfold ndest, len. cbn [filter]. rewrite E. destruct w; cbn [length wdest]; lia. Qed.
Lemma sids_cons f k w : wof f = Some w -> sids (f :: k) = wsid w ++ sids k.
Proof. intros E. unfold sids. cbn. f_equal. destruct f; cbn in *; congruence. Qed.
Lemma ncli_pos k : 0 <= ncli k. Proof. unfold ncli, len. lia. Qed.
Lemma ndest_pos k : 0 <= ndest k. Proof. unfold ndest, len. lia. Qed.
Lemma len_pos {A} (l : list A) : 0 <= len l. Proof. unfold len. lia. Qed.

Definition resting (k : list frame) : Prop := k = [] \/ exists sid, k = [FOther sid].
(* hm: the sources are called on the thread of the pool only *)
Record Liv (hm : bool) (r : Z) (q : pool) (v : variable) (srcs : list (nat * bool)) (n : nat) (k0 : list frame) (ot : list (list frame)) (tr : list event) : Prop := {
  l_refs : r = owned tr + len (selflist tr) + ndest k0 + len srcs;
  l_owned : 0 <= owned tr;
  l_dr : draining tr = ncli k0;
  l_cli : 0 < ncli k0 -> 1 <= owned tr;
  l_tail : Forall (fun f => iscb f = true) (tl k0);
  l_who : Forall (fun f => living f = true) k0;
  l_ot : Forall resting ot;
  l_nd : NoDup (map fst srcs);
  l_lt : forall id b, In (id, b) srcs -> (0 < id < n)%nat;
  l_in : forall sid, In (sid, true) srcs <-> In sid (sids k0 ++ sids (concat ot));
  l_ns : NoDup (sids k0 ++ sids (concat ot));
  l_idle : p_idle q <> 0%nat -> In (p_idle q, false) srcs;
  l_out : forall id, In (id, false) srcs -> p_idle q = id \/ exists w k, k0 = FRemove id w :: k;
  l_rm : match k0 with FRemove _ _ :: _ | FRemoved _ :: _ => waiting tr = [] /\ p_idle q = 0%nat | _ => True end;
  l_var : v = VThis <-> p_shared q = true;
  l_sch : scheduled tr = awake srcs;
  l_n : (0 < n)%nat;
  l_ready : hm = true -> waiting tr <> [] -> p_idle q <> 0%nat \/ exists sid k, k0 = FLoop (WIdle sid) :: k }.
Ltac openl I := destruct I as [l_refs0 l_owned0 l_dr0 l_cli0 l_tail0 l_who0 l_ot0 l_nd0 l_lt0 l_in0 l_ns0 l_idle0 l_out0 l_rm0 l_var0 l_sch0 l_n0 l_ready0].

Definition finalf (f : frame) : bool := match f with FLoop WFinal | FBatch _ _ WFinal | FCb _ _ WFinal => true | _ => false end.
Definition over (srcs : list (nat * bool)) (v : variable) (tr : list event) : Prop :=
  srcs = [] /\ owned tr = 0 /\ selflist tr = [] /\ draining tr = 0 /\ v <> VThis /\ scheduled tr = [].
Fixpoint clean (tr : list event) : Prop :=
  match tr with [] => True | EDrained _ _ :: tr => (waiting tr = [] /\ scheduled tr = []) /\ clean tr | _ :: tr => clean tr end.
Inductive sane (hm : bool) (s : state) : Prop :=
| live q k0 ot : s_pool s = Some q -> s_stacks s = k0 :: ot -> 0 < p_refs q -> Liv hm (p_refs q) q (s_var s) (s_srcs s) (s_next s) k0 ot (s_trace s) ->
    clean (s_trace s) -> sane hm s
| final q t f : s_pool s = Some q -> p_refs q = 0 -> p_idle q = 0%nat -> nth_error (s_stacks s) t = Some [f] -> finalf f = true ->
    (forall u k, u <> t -> nth_error (s_stacks s) u = Some k -> k = []) -> over (s_srcs s) (s_var s) (s_trace s) -> clean (s_trace s) ->
    (hm = true -> waiting (s_trace s) = []) -> sane hm s
| gone : s_pool s = None -> calm s -> over (s_srcs s) (s_var s) (s_trace s) -> clean (s_trace s) -> waiting (s_trace s) = [] ->
    (forall a, ~ alive (s_heap s) a) -> sane hm s.

(* somebody is using the pool *)
Lemma used hm r q v srcs n k0 ot tr f w : Liv hm r q v srcs n k0 ot tr -> In f k0 -> wof f = Some w -> 1 <= owned tr + ndest k0 + len srcs.
Proof.
  intros I If Ew. openl I. pose proof (ndest_pos k0). pose proof (len_pos srcs). rewrite Forall_forall in l_who0. pose proof (l_who0 f If) as Lf. unfold living in Lf. rewrite Ew in Lf.
  destruct w as [| |sid|]; [| | |discriminate].
  - assert (0 < ncli k0). { unfold ncli. clear - If Ew. induction k0 as [|g k IH]; [destruct If|]. cbn [filter]. destruct If as [->|If].
      - rewrite Ew. unfold len. cbn [length]. lia.
      - specialize (IH If). destruct (match wof g with Some WClient => true | _ => false end); unfold len in *; cbn [length]; lia. }
    specialize (l_cli0 H1). lia.
  - assert (0 < ndest k0). { unfold ndest. clear - If Ew. induction k0 as [|g k IH]; [destruct If|]. cbn [filter]. destruct If as [->|If].
      - rewrite Ew. unfold len. cbn [length]. lia.
      - specialize (IH If). destruct (match wof g with Some WDestroy => true | _ => false end); unfold len in *; cbn [length]; lia. }
    lia.
  - assert (I : In (sid, true) srcs). { apply l_in0. apply in_app_iff. left. unfold sids. apply in_flat_map. exists f. split; auto. destruct f; cbn in *; try discriminate; injection Ew as ->; cbn; auto. }
    destruct srcs; [destruct I|]. unfold len in *. cbn [length] in *. lia.
Qed.
Lemma used_top hm r q v srcs n f k ot tr : Liv hm r q v srcs n (f :: k) ot tr -> 1 <= r.
Proof.
  intros I. pose proof I as I'. openl I'. inversion l_who0 as [|? ? Lf _]; subst. unfold living in Lf. destruct (wof f) as [w|] eqn:E; [|discriminate].
  pose proof (used _ _ _ _ _ _ _ _ _ _ _ I (or_introl eq_refl) E). pose proof (len_pos (selflist tr)). lia.
Qed.

(* lines 138-141 *)
Lemma drop_sane hm h q v srcs n ks tr t k' k0 ot : (t < length ks)%nat -> Liv hm (p_refs q - 1) q v srcs n k0 ot tr -> upd ks t k' = k0 :: ot -> clean tr ->
  (hm = true -> p_idle q = 0%nat -> waiting tr = [] \/ k0 <> []) ->
  exists s', drop (State h (Some q) v srcs n ks tr) t k' = Ok s' /\ sane hm s'.
Proof.
  intros Lt I Eu C Hw. assert (Eu' := Eu). unfold drop. flat. destruct (Z.eqb_spec (p_refs q - 1) 0) as [Ez|Nz].
  - rewrite Ez in I. destruct k0 as [|f k0]; [|pose proof (used_top _ _ _ _ _ _ _ _ _ _ I); lia]. pose proof I as I'. openl I'.
    pose proof (len_pos (selflist tr)). pose proof (len_pos srcs). pose proof (ndest_pos []).
    assert (Es : srcs = []). { destruct srcs; auto. unfold len in *. cbn [length] in *. lia. }
    assert (El : selflist tr = []). { destruct (selflist tr); auto. unfold len in *. cbn [length] in *. lia. }
    assert (Eo : Forall (fun k => k = []) ot).
    { rewrite Forall_forall in *. intros k Ik. destruct (l_ot0 k Ik) as [->|(sid & ->)]; auto. exfalso. assert (X : In (sid, true) srcs).
      { apply l_in0. cbn. apply in_flat_map. exists (FOther sid). split; [apply in_concat; eexists; split; [exact Ik|]; cbn; auto|cbn; auto]. }
      rewrite Es in X. destruct X. }
    assert (Ei : p_idle q = 0%nat). { destruct (Nat.eq_dec (p_idle q) 0) as [|X]; auto. exfalso. specialize (l_idle0 X). rewrite Es in l_idle0. destruct l_idle0. }
    assert (Ek : nth_error (upd ks t k') t = Some k'). { apply nth_error_upd_eq. auto. }
    assert (All : Forall (fun k => k = []) (upd ks t k')) by (rewrite Eu; constructor; auto).
    assert (k' = []) as ->. { rewrite Forall_forall in All. apply All. eapply nth_error_In; eauto. }
    assert (V : forall b : bool, p_shared q = b -> (if b then VNull else v) <> VThis). { intros b Eb. destruct b; [discriminate|]. rewrite l_var0. congruence. }
    eexists. split; [reflexivity|].
    eapply (final hm _ (set_refs q (p_refs q - 1)) t (FLoop WFinal)); [| | | | | | | |].
    + destruct (p_shared q); reflexivity.
    + exact Ez.
    + exact Ei.
    + destruct (p_shared q); flat; apply nth_error_upd_eq; auto.
    + reflexivity.
    + intros u k Nu Ek'. assert (Ek2 : nth_error (upd ks t []) u = Some k). { rewrite nth_error_upd_ne by auto. destruct (p_shared q); cbn in Ek'; rewrite nth_error_upd_ne in Ek' by auto; auto. }
      rewrite Forall_forall in All. apply All. eapply nth_error_In; eauto.
    + unfold over. specialize (V _ eq_refl). destruct (p_shared q); cbn; rewrite l_sch0, Es; repeat split; auto; rewrite Es in *; cbn in *; try lia.
    + destruct (p_shared q); exact C.
    + intros Hm. assert (W : waiting tr = []). { destruct (Hw Hm Ei) as [|X]; auto. congruence. } destruct (p_shared q); exact W.
  - eexists. split; [reflexivity|]. eapply (live hm _ (set_refs q (p_refs q - 1)) k0 ot); flat; auto.
    + cbn. pose proof I as I'. openl I'. pose proof (len_pos (selflist tr)). pose proof (len_pos srcs). pose proof (ndest_pos k0). lia.
    + cbn [p_refs set_refs]. openl I. constructor; auto.
Qed.
