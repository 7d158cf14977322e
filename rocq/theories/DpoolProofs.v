(* The references to the default pools add up *)
From Verif Require Import Base DpoolModel DpoolSpec.

(* ---------------- sums ---------------- *)
Fixpoint sumz {A} (f : A -> Z) (l : list A) : Z := match l with [] => 0 | x :: l => f x + sumz f l end.
Lemma sumz_app {A} (f : A -> Z) a b : sumz f (a ++ b) = sumz f a + sumz f b.
Proof. induction a as [|x a IH]; cbn [app sumz]; lia. Qed.
Lemma sumz_upd {A} (f : A -> Z) l : forall n x y, nth_error l n = Some x -> sumz f (upd l n y) = sumz f l - f x + f y.
Proof. induction l as [|z l IH]; intros [|n] x y E; cbn in *; try discriminate; [injection E as ->; lia|rewrite (IH n x) by auto; lia]. Qed.
Lemma sumz_nonneg {A} (f : A -> Z) l : (forall x, 0 <= f x) -> 0 <= sumz f l.
Proof. intros H. induction l as [|x l IH]; cbn; [lia|]. specialize (H x). lia. Qed.
Lemma sumz_in {A} (f : A -> Z) l x : (forall x, 0 <= f x) -> In x l -> f x <= sumz f l.
Proof. intros H. induction l as [|y l IH]; cbn; [tauto|]. pose proof (sumz_nonneg f l H). pose proof (H y). intros [->|I]; [lia|]. specialize (IH I). lia. Qed.
Lemma sumz_two {A} (f : A -> Z) l i j x y : (forall x, 0 <= f x) -> nth_error l i = Some x -> nth_error l j = Some y -> i <> j -> f x + f y <= sumz f l.
Proof.
  intros H. revert i j. induction l as [|z l IH]; intros [|i] [|j] E F N; cbn in *; try discriminate; try lia.
  - injection E as ->. apply nth_error_In in F. pose proof (sumz_in f l y H F). lia.
  - injection F as ->. apply nth_error_In in E. pose proof (sumz_in f l x H E). lia.
  - specialize (IH i j E F ltac:(lia)). specialize (H z). lia.
Qed.
Lemma sumz_ext {A} (f g : A -> Z) l : (forall x, In x l -> f x = g x) -> sumz f l = sumz g l.
Proof. induction l as [|x l IH]; intros H; cbn; auto. rewrite (H x), IH; cbn; auto. intros y I. apply H. cbn. auto. Qed.
Lemma sumz_zero {A} (f : A -> Z) l : (forall x, In x l -> f x = 0) -> sumz f l = 0.
Proof. induction l as [|x l IH]; intros H; cbn; auto. rewrite (H x), IH; cbn; auto. intros y I. apply H. cbn. auto. Qed.
Lemma sumz_pos {A} (f : A -> Z) l : (forall x, 0 <= f x) -> 0 < sumz f l -> exists x, In x l /\ 0 < f x.
Proof. intros H. induction l as [|x l IH]; cbn; [lia|]. intros P. destruct (Z_lt_dec 0 (f x)); [eauto|]. specialize (H x). destruct IH as (y & I & Q); [lia|eauto]. Qed.
Lemma sumz_map {A B} (f : B -> Z) (g : A -> B) l : sumz f (map g l) = sumz (fun x => f (g x)) l.
Proof. induction l; cbn; congruence. Qed.

(* ---------------- what holds a reference ---------------- *)
Definition hold (p : nat) (o : option nat) : Z := match o with Some x => if Nat.eqb x p then 1 else 0 | None => 0 end.
Lemma hold_nonneg p o : 0 <= hold p o.
Proof. destruct o as [x|]; cbn; [destruct (Nat.eqb x p)|]; lia. Qed.
Lemma hold_same p : hold p (Some p) = 1.
Proof. cbn. rewrite Nat.eqb_refl. auto. Qed.
Lemma hold_one p o : 0 < hold p o -> o = Some p.
Proof. destruct o as [x|]; cbn; [destruct (Nat.eqb_spec x p); [congruence|lia]|lia]. Qed.
(* the pool and the caller of a drain in progress *)
Definition fcaller (f : frame) : option (nat * caller) :=
  match f with
  | FLoop p w | FBatch p _ w | FCb p _ w | FRemove p _ w | FRemoved p w => Some (p, w)
  | FOther p c id => Some (p, WIdle c id)
  | FExit _ | FClose _ => None
  end.
Definition finalw (p : nat) (x : option (nat * caller)) : Z := match x with Some (y, WFinal) => if Nat.eqb y p then 1 else 0 | _ => 0 end.
Definition runw (c id : nat) (x : option (nat * caller)) : Z := match x with Some (_, WIdle c' id') => if Nat.eqb c' c && Nat.eqb id' id then 1 else 0 | _ => 0 end.
Definition slots (p : nat) (s : state) : Z := sumz (fun th => hold p (t_slot th)) (s_threads s).
Definition nsrcs (p : nat) (s : state) : Z := sumz (fun x => hold p (c_owner x)) (s_srcs s).
Definition finals (p : nat) (s : state) : Z := sumz (fun th => sumz (fun f => finalw p (fcaller f)) (t_stack th)) (s_threads s).
Definition runs (c id : nat) (s : state) : Z := sumz (fun th => sumz (fun f => runw c id (fcaller f)) (t_stack th)) (s_threads s).
Lemma finalw_nonneg p x : 0 <= finalw p x.
Proof. destruct x as [(y & [|c id|])|]; cbn; try lia. destruct (Nat.eqb y p); lia. Qed.
Lemma runw_nonneg c id x : 0 <= runw c id x.
Proof. destruct x as [(y & [|c' id'|])|]; cbn; try lia. destruct (_ && _); lia. Qed.
#[global] Hint Resolve hold_nonneg finalw_nonneg runw_nonneg : core.
Lemma slots_nonneg p s : 0 <= slots p s. Proof. apply sumz_nonneg. auto. Qed.
Lemma nsrcs_nonneg p s : 0 <= nsrcs p s. Proof. apply sumz_nonneg. auto. Qed.
Lemma finals_nonneg p s : 0 <= finals p s. Proof. apply sumz_nonneg. intros. apply sumz_nonneg. auto. Qed.
Lemma runs_nonneg c id s : 0 <= runs c id s. Proof. apply sumz_nonneg. intros. apply sumz_nonneg. auto. Qed.

Fixpoint shape (k : list frame) : Prop := match k with [] => True | FExit _ :: k => k = [] | _ :: k => shape k end.
Definition pair_of (x : src) : nat * nat := (c_ctx x, c_id x).

(* ---------------- the invariant; x is the pool to which a reference is about to be dropped ---------------- *)
Record Inv (x : option nat) (s : state) : Prop := mkInv {
  i_refs : forall p, match nth_error (s_pools s) p with
    | Some (Some q) => p_refs q = owned p (s_trace s) + slots p s + nsrcs p s + hold p x /\ finals p s = (if p_refs q =? 0 then 1 else 0)
    | _ => owned p (s_trace s) = 0 /\ slots p s = 0 /\ nsrcs p s = 0 /\ hold p x = 0 /\ finals p s = 0
    end;
  i_own : forall p, 0 <= owned p (s_trace s);
  i_slot : forall t th f p, nth_error (s_threads s) t = Some th -> In f (t_stack th) -> fcaller f = Some (p, WClient) -> t_slot th = Some p;
  i_run : forall t th f p c id, nth_error (s_threads s) t = Some th -> In f (t_stack th) -> fcaller f = Some (p, WIdle c id) ->
    exists st, st <> SIdle /\ In (Src c id (Some p) st) (s_srcs s);
  i_runs : forall c id, runs c id s <= 1;
  i_busy : forall y, In y (s_srcs s) -> c_stat y <> SIdle -> runs (c_ctx y) (c_id y) s = 1 /\ c_owner y <> None;
  i_ids : NoDup (map pair_of (s_srcs s));
  i_next : forall y, In y (s_srcs s) -> exists n b, nth_error (s_ctxs s) (c_ctx y) = Some (n, b) /\ (c_id y <> 0)%nat /\ (b = true -> (c_id y < n)%nat);
  i_ctx : forall t th, nth_error (s_threads s) t = Some th -> is_open s (t_ctx th) = true;
  i_pos : forall c n, nth_error (s_ctxs s) c = Some (n, true) -> (0 < n)%nat;
  i_shape : forall t th, nth_error (s_threads s) t = Some th -> shape (t_stack th) /\ (t_stack th <> [] -> exists_thread th = true);
  i_zero : is_open s 0 = true;
  i_closed : forall y, In y (s_srcs s) -> is_open s (c_ctx y) = false -> c_stat y = SIdle
}.

Lemma live_pool x s p : Inv x s -> 0 < owned p (s_trace s) + slots p s + nsrcs p s + hold p x + finals p s -> exists q, nth_error (s_pools s) p = Some (Some q).
Proof. intros I H. pose proof (i_refs _ _ I p) as R. destruct (nth_error (s_pools s) p) as [[q|]|]; eauto; lia. Qed.
Lemma slot_live x s t th p : Inv x s -> nth_error (s_threads s) t = Some th -> t_slot th = Some p -> exists q, nth_error (s_pools s) p = Some (Some q) /\ 0 < p_refs q.
Proof.
  intros I E F. assert (P : 1 <= slots p s). { unfold slots. rewrite <- (hold_same p), <- F. apply (sumz_in (fun th => hold p (t_slot th))); auto. eapply nth_error_In; eauto. }
  pose proof (i_own _ _ I p). pose proof (nsrcs_nonneg p s). pose proof (finals_nonneg p s). pose proof (hold_nonneg p x). destruct (live_pool x s p I) as (q & Q); [lia|]. exists q. split; auto.
  pose proof (i_refs _ _ I p) as R. rewrite Q in R. lia.
Qed.
Lemma src_live x s y p : Inv x s -> In y (s_srcs s) -> c_owner y = Some p -> exists q, nth_error (s_pools s) p = Some (Some q) /\ 0 < p_refs q.
Proof.
  intros I E F. assert (P : 1 <= nsrcs p s). { unfold nsrcs. rewrite <- (hold_same p), <- F. apply (sumz_in (fun y => hold p (c_owner y))); auto. }
  pose proof (i_own _ _ I p). pose proof (slots_nonneg p s). pose proof (finals_nonneg p s). pose proof (hold_nonneg p x). destruct (live_pool x s p I) as (q & Q); [lia|]. exists q. split; auto.
  pose proof (i_refs _ _ I p) as R. rewrite Q in R. lia.
Qed.
Lemma final_in s t th f p : nth_error (s_threads s) t = Some th -> In f (t_stack th) -> fcaller f = Some (p, WFinal) -> 1 <= finals p s.
Proof.
  intros E F G. assert (finalw p (fcaller f) = 1) as <- by (rewrite G; cbn; rewrite Nat.eqb_refl; auto). transitivity (sumz (fun f => finalw p (fcaller f)) (t_stack th)).
  - apply (sumz_in (fun f => finalw p (fcaller f))); auto.
  - apply (sumz_in (fun th => sumz (fun f => finalw p (fcaller f)) (t_stack th))); [intros; apply sumz_nonneg; auto|eapply nth_error_In; eauto].
Qed.
Lemma frame_live s t th f p w : Inv None s -> nth_error (s_threads s) t = Some th -> In f (t_stack th) -> fcaller f = Some (p, w) ->
  exists q, nth_error (s_pools s) p = Some (Some q) /\ (w = WFinal <-> p_refs q = 0).
Proof.
  intros I E F G. assert (P : forall q, nth_error (s_pools s) p = Some (Some q) -> p_refs q = 0 -> w <> WFinal -> False -> False) by auto. destruct w as [|c id|].
  - destruct (slot_live _ _ _ _ p I E) as (q & Q & R); [eapply i_slot; eauto|]. exists q. split; auto. split; [discriminate|lia].
  - destruct (i_run _ _ I _ _ _ _ _ _ E F G) as (st & _ & X). destruct (src_live _ _ _ p I X eq_refl) as (q & Q & R). exists q. split; auto. split; [discriminate|lia].
  - pose proof (final_in _ _ _ _ _ E F G) as X. pose proof (i_own _ _ I p). pose proof (slots_nonneg p s). pose proof (nsrcs_nonneg p s). pose proof (hold_nonneg p None). destruct (live_pool None s p I) as (q & Q); [lia|].
    exists q. split; auto. split; auto. intros _. pose proof (i_refs _ _ I p) as R. rewrite Q in R. destruct R as (_ & R). destruct (Z.eqb_spec (p_refs q) 0); lia.
Qed.

(* ---------------- lists of sources ---------------- *)
Lemma is_src_spec c id y : is_src c id y = true <-> pair_of y = (c, id).
Proof. unfold is_src, pair_of. rewrite andb_true_iff, !Nat.eqb_eq. split; [intros (-> & ->); auto|intros E; injection E; auto]. Qed.
Lemma without_in l c id y : In y (without l c id) <-> In y l /\ pair_of y <> (c, id).
Proof.
  unfold without. rewrite filter_In. rewrite negb_true_iff. split; intros (A & B); split; auto.
  - intros E. apply is_src_spec in E. congruence.
  - destruct (is_src c id y) eqn:E; auto. apply is_src_spec in E. contradiction.
Qed.
Lemma pair_inj l : NoDup (map pair_of l) -> forall y z, In y l -> In z l -> pair_of y = pair_of z -> y = z.
Proof.
  induction l as [|a l IH]; intros N y z; cbn in *; [tauto|]. inversion N as [|? ? NI N' ]; subst. intros [->|Y] [->|Z] E; auto.
  - exfalso. apply NI. rewrite E. apply in_map. auto.
  - exfalso. apply NI. rewrite <- E. apply in_map. auto.
Qed.
Lemma without_none l c id : ~ In (c, id) (map pair_of l) -> without l c id = l.
Proof.
  induction l as [|a l IH]; intros N; cbn in *; auto. destruct (is_src c id a) eqn:E; [apply is_src_spec in E; tauto|]. cbn. f_equal. apply IH. tauto.
Qed.
Lemma sumz_without (f : src -> Z) l y : NoDup (map pair_of l) -> In y l -> sumz f (without l (c_ctx y) (c_id y)) = sumz f l - f y.
Proof.
  induction l as [|a l IH]; intros N I; cbn in *; [tauto|]. inversion N as [|? ? NI N']; subst. destruct I as [->|I].
  - rewrite (proj2 (is_src_spec _ _ y)) by reflexivity. cbn [negb]. pose proof (without_none l (c_ctx y) (c_id y) NI) as W. unfold without in W. rewrite W. lia.
  - destruct (is_src (c_ctx y) (c_id y) a) eqn:E.
    + apply is_src_spec in E. exfalso. apply NI. rewrite E. apply (in_map pair_of l y I).
    + cbn [negb sumz]. unfold without in IH. rewrite IH by auto. lia.
Qed.
Lemma nodup_filter {A B} (f : A -> B) (g : A -> bool) l : NoDup (map f l) -> NoDup (map f (filter g l)).
Proof.
  induction l as [|a l IH]; intros N; cbn in *; auto. inversion N; subst. destruct (g a); cbn; auto. constructor; auto. rewrite in_map_iff in *. intros (z & E & Z). apply H1. apply filter_In in Z. exists z. tauto.
Qed.
Lemma mark_pairs l c id st : map pair_of (mark l c id st) = map pair_of l.
Proof. unfold mark. rewrite map_map. apply map_ext. intros a. destruct (is_src c id a); reflexivity. Qed.
Lemma mark_owner (f : option nat -> Z) l c id st : sumz (fun y => f (c_owner y)) (mark l c id st) = sumz (fun y => f (c_owner y)) l.
Proof. unfold mark. rewrite sumz_map. apply sumz_ext. intros y _. destruct (is_src c id y); reflexivity. Qed.
Lemma mark_in l c id st z : In z (mark l c id st) <-> (exists y, In y l /\ pair_of y = (c, id) /\ z = Src c id (c_owner y) st) \/ (In z l /\ pair_of z <> (c, id)).
Proof.
  unfold mark. rewrite in_map_iff. split.
  - intros (y & E & Y). destruct (is_src c id y) eqn:S.
    + left. exists y. apply is_src_spec in S. split; auto. split; auto. subst z. unfold pair_of in S. injection S as -> ->. auto.
    + right. subst z. split; auto. intros F. apply is_src_spec in F. congruence.
  - intros [(y & Y & P & ->)|(Z & N)].
    + exists y. split; auto. rewrite (proj2 (is_src_spec c id y) P). unfold pair_of in P. injection P as -> ->. auto.
    + exists z. split; auto. destruct (is_src c id z) eqn:S; auto. apply is_src_spec in S. contradiction.
Qed.
Lemma found c id (g : src -> bool) l y : find (fun x => is_src c id x && g x) l = Some y -> In y l /\ pair_of y = (c, id) /\ g y = true.
Proof. intros F. apply find_some in F. destruct F as (A & B). apply andb_true_iff in B. rewrite is_src_spec in B. tauto. Qed.
Lemma found1 c id l y : find (fun x => is_src c id x) l = Some y -> In y l /\ pair_of y = (c, id).
Proof. intros F. apply find_some in F. rewrite is_src_spec in F. tauto. Qed.

(* ---------------- changes of a thread ---------------- *)
Lemma on_thread_eq s t th f : nth_error (s_threads s) t = Some th -> on_thread s t f = set_threads s (upd (s_threads s) t (f th)).
Proof. intros E. unfold on_thread. rewrite E. auto. Qed.
Lemma upd_same {A} (l : list A) : forall n a, nth_error l n = Some a -> forall b, nth_error (upd l n b) n = Some b.
Proof. induction l as [|x l IH]; intros [|n] a E b; cbn in *; try discriminate; eauto. Qed.
Lemma upd_twice {A} (l : list A) : forall n a b, upd (upd l n a) n b = upd l n b.
Proof. induction l as [|x l IH]; intros [|n] a b; cbn; auto. f_equal. auto. Qed.
Lemma upd_other {A} (l : list A) : forall n m a, n <> m -> nth_error (upd l n a) m = nth_error l m.
Proof. induction l as [|x l IH]; intros [|n] [|m] a N; cbn; auto; try lia. Qed.
Lemma push_eq s t th f : nth_error (s_threads s) t = Some th -> push s t f = set_threads s (upd (s_threads s) t (with_stack th (f :: t_stack th))).
Proof. intros E. unfold push. rewrite (on_thread_eq _ _ _ _ E). auto. Qed.
Lemma pop_eq s t th f k : nth_error (s_threads s) t = Some th -> t_stack th = f :: k -> pop s t = set_threads s (upd (s_threads s) t (with_stack th k)).
Proof. intros E F. unfold pop. rewrite (on_thread_eq _ _ _ _ E). rewrite F. auto. Qed.
Lemma swap_eq s t th f k g : nth_error (s_threads s) t = Some th -> t_stack th = f :: k -> swap s t g = set_threads s (upd (s_threads s) t (with_stack th (g :: k))).
Proof.
  intros E F. unfold swap. rewrite (pop_eq _ _ _ _ _ E F). erewrite push_eq; [|apply (upd_same _ _ _ E)]. cbn [set_threads s_threads s_pools s_srcs s_ctxs s_items s_trace]. rewrite upd_twice. reflexivity.
Qed.
Ltac flat := cbn [set_threads set_pools set_srcs set_ctxs set_items emit set_pool s_threads s_pools s_srcs s_ctxs s_items s_trace].
Lemma set_open s l : forall c, is_open (set_threads s l) c = is_open s c.
Proof. reflexivity. Qed.

Lemma inv_thread x x' s t th th' : Inv x s -> nth_error (s_threads s) t = Some th ->
  (forall p, hold p (t_slot th') + hold p x' = hold p (t_slot th) + hold p x) ->
  (forall p, sumz (fun f => finalw p (fcaller f)) (t_stack th') = sumz (fun f => finalw p (fcaller f)) (t_stack th)) ->
  (forall c id, sumz (fun f => runw c id (fcaller f)) (t_stack th') = sumz (fun f => runw c id (fcaller f)) (t_stack th)) ->
  (forall f p, In f (t_stack th') -> fcaller f = Some (p, WClient) -> t_slot th' = Some p) ->
  (forall f p c id, In f (t_stack th') -> fcaller f = Some (p, WIdle c id) -> exists g, In g (t_stack th) /\ fcaller g = Some (p, WIdle c id)) ->
  is_open s (t_ctx th') = true -> shape (t_stack th') -> (t_stack th' <> [] -> exists_thread th' = true) ->
  Inv x' (set_threads s (upd (s_threads s) t th')).
Proof.
  intros I E HS HF HR HC HI HO SH EX. pose proof (upd_same _ _ _ E th') as Eq.
  assert (F : forall p, finals p (set_threads s (upd (s_threads s) t th')) = finals p s). { intros p. unfold finals. flat. rewrite (sumz_upd _ _ _ _ th' E), HF. lia. }
  assert (R : forall c id, runs c id (set_threads s (upd (s_threads s) t th')) = runs c id s). { intros c id. unfold runs. flat. rewrite (sumz_upd _ _ _ _ th' E), HR. lia. }
  assert (S : forall p, slots p (set_threads s (upd (s_threads s) t th')) = slots p s - hold p (t_slot th) + hold p (t_slot th')). { intros p. unfold slots. flat. rewrite (sumz_upd _ _ _ _ th' E). lia. }
  constructor.
  - intros p. pose proof (i_refs _ _ I p) as X. rewrite F, S. specialize (HS p). unfold nsrcs in *. flat. assert (Sl : hold p (t_slot th) <= slots p s) by (apply (sumz_in (fun th => hold p (t_slot th))); auto; eapply nth_error_In; eauto).
    pose proof (hold_nonneg p (t_slot th)). pose proof (hold_nonneg p (t_slot th')). pose proof (hold_nonneg p x'). pose proof (hold_nonneg p x).
    destruct (nth_error (s_pools s) p) as [[q|]|]; [destruct X; split; lia|..]; lia.
  - exact (i_own _ _ I).
  - intros u thu f p Eu Fi Fc. flat. cbn [s_threads set_threads] in Eu. destruct (Nat.eq_dec t u) as [<-|Ne]; [assert (thu = th') as -> by congruence; eauto|rewrite upd_other in Eu by auto; eapply i_slot; eauto].
  - intros u thu f p c id Eu Fi Fc. flat. cbn [s_threads set_threads] in Eu. destruct (Nat.eq_dec t u) as [<-|Ne].
    + assert (thu = th') as -> by congruence. destruct (HI f p c id Fi Fc) as (g & G1 & G2). eapply i_run; eauto.
    + rewrite upd_other in Eu by auto. eapply i_run; eauto.
  - intros c id. rewrite R. apply (i_runs _ _ I).
  - intros y Y St. rewrite R. apply (i_busy _ _ I); auto.
  - exact (i_ids _ _ I).
  - exact (i_next _ _ I).
  - intros u thu Eu. rewrite set_open. cbn [s_threads set_threads] in Eu. destruct (Nat.eq_dec t u) as [<-|Ne]; [assert (thu = th') as -> by congruence; auto|rewrite upd_other in Eu by auto; eapply i_ctx; eauto].
  - exact (i_pos _ _ I).
  - intros u thu Eu. cbn [s_threads set_threads] in Eu. destruct (Nat.eq_dec t u) as [<-|Ne]; [assert (thu = th') as -> by congruence; auto|rewrite upd_other in Eu by auto; eapply i_shape; eauto].
  - exact (i_zero _ _ I).
  - exact (i_closed _ _ I).
Qed.

Lemma inv_emit x s e : Inv x s -> (forall p, owned p (e :: s_trace s) = owned p (s_trace s)) -> Inv x (emit s e).
Proof. intros I H. constructor; try apply I; [|intros p; flat; rewrite H; apply (i_own _ _ I)]. intros p. flat. rewrite H. apply (i_refs _ _ I). Qed.
Lemma inv_items x s n : Inv x s -> Inv x (set_items s n).
Proof. intros I. constructor; apply I. Qed.
Lemma inv_pool x s p q q' : Inv x s -> nth_error (s_pools s) p = Some (Some q) -> p_refs q' = p_refs q -> Inv x (set_pool s p (Some q')).
Proof.
  intros I E H. constructor; try apply I. intros r. pose proof (i_refs _ _ I r) as X. unfold slots, nsrcs, finals in *. flat. destruct (Nat.eq_dec p r) as [<-|Ne].
  - rewrite (upd_same _ _ _ E). rewrite E in X. rewrite H. auto.
  - rewrite upd_other by auto. auto.
Qed.

(* ---------------- dropping a reference ---------------- *)
Lemma drop_ok s t th p : Inv (Some p) s -> nth_error (s_threads s) t = Some th -> exists_thread th = true -> exists s', drop s t p = Ok s' /\ Inv None s'.
Proof.
  intros I E EX. pose proof (i_own _ _ I p). pose proof (slots_nonneg p s). pose proof (nsrcs_nonneg p s). pose proof (finals_nonneg p s). pose proof (hold_same p) as HS.
  destruct (live_pool _ _ p I) as (q & Q); [lia|]. pose proof (i_refs _ _ I p) as R. rewrite Q in R. destruct R as (R1 & R2). unfold drop, the_pool. rewrite Q. cbn [bind].
  assert (R0 : finals p s = 0) by (destruct (Z.eqb_spec (p_refs q) 0); lia).
  destruct (Z.eqb_spec (p_refs q - 1) 0) as [Z|NZ].
  - eexists. split; [reflexivity|]. set (q' := Pool _ _ _ _). rewrite (push_eq _ _ th) by exact E. flat. set (th' := with_stack th _). pose proof (upd_same _ _ _ E th') as Eq.
    assert (F : forall r, sumz (fun th => sumz (fun f => finalw r (fcaller f)) (t_stack th)) (upd (s_threads s) t th') = finals r s + hold r (Some p)). { intros r. rewrite (sumz_upd _ _ _ _ th' E). unfold finals. cbn. destruct (Nat.eqb p r); lia. }
    assert (Rn : forall c id, sumz (fun th => sumz (fun f => runw c id (fcaller f)) (t_stack th)) (upd (s_threads s) t th') = runs c id s). { intros c id. rewrite (sumz_upd _ _ _ _ th' E). unfold runs. cbn. lia. }
    assert (S : forall r, sumz (fun th => hold r (t_slot th)) (upd (s_threads s) t th') = slots r s). { intros r. rewrite (sumz_upd _ _ _ _ th' E). unfold slots. cbn. lia. }
    assert (Th : forall u thu, nth_error (upd (s_threads s) t th') u = Some thu -> exists thu0, nth_error (s_threads s) u = Some thu0 /\ t_slot thu = t_slot thu0 /\ t_ctx thu = t_ctx thu0 /\
      (t_stack thu = t_stack thu0 \/ t_stack thu = FLoop p WFinal :: t_stack thu0 /\ exists_thread thu = true)).
    { intros u thu Eu. destruct (Nat.eq_dec t u) as [<-|Ne]; [assert (thu = th') as -> by congruence; exists th; cbn; auto 10|rewrite upd_other in Eu by auto; exists thu; auto]. }
    constructor; unfold slots, nsrcs, finals, runs; flat.
    + intros r. rewrite S, F. pose proof (i_refs _ _ I r) as X. cbn [hold] in *. destruct (Nat.eq_dec p r) as [<-|Ne].
      * rewrite (upd_same _ _ _ Q). cbn [p_refs q']. rewrite Nat.eqb_refl. fold (nsrcs p s). cbn [owned]. split; [lia|]. rewrite R0. rewrite (proj2 (Z.eqb_eq _ _) Z). lia.
      * rewrite upd_other by auto. cbn [owned]. destruct (Nat.eqb_spec p r); [contradiction|]. fold (nsrcs r s). destruct (nth_error (s_pools s) r) as [[?|]|]; [destruct X; split|..]; lia.
    + intros r. cbn [owned]. apply (i_own _ _ I).
    + intros u thu f r Eu Fi Fc. destruct (Th u thu Eu) as (thu0 & E0 & -> & _ & [K|(K & _)]); rewrite K in Fi; [eapply i_slot; eauto|]. destruct Fi as [<-|Fi]; [discriminate|eapply i_slot; eauto].
    + intros u thu f r c id Eu Fi Fc. destruct (Th u thu Eu) as (thu0 & E0 & _ & _ & [K|(K & _)]); rewrite K in Fi; [eapply i_run; eauto|]. destruct Fi as [<-|Fi]; [discriminate|eapply i_run; eauto].
    + intros c id. rewrite Rn. apply (i_runs _ _ I).
    + intros y Y St. rewrite Rn. apply (i_busy _ _ I); auto.
    + apply (i_ids _ _ I).
    + apply (i_next _ _ I).
    + intros u thu Eu. destruct (Th u thu Eu) as (thu0 & E0 & _ & -> & _). apply (i_ctx _ _ I _ _ E0).
    + apply (i_pos _ _ I).
    + intros u thu Eu. destruct (Nat.eq_dec t u) as [<-|Ne]; [assert (thu = th') as -> by congruence|rewrite upd_other in Eu by auto; eapply i_shape; eauto]. cbn. split; [eapply i_shape; eauto|auto].
    + exact (i_zero _ _ I).
    + exact (i_closed _ _ I).
  - eexists. split; [reflexivity|]. constructor; try apply I. intros r. unfold slots, nsrcs, finals. flat. fold (slots r s) (nsrcs r s) (finals r s). pose proof (i_refs _ _ I r) as X. cbn [hold] in *. destruct (Nat.eq_dec p r) as [<-|Ne].
    + rewrite (upd_same _ _ _ Q). cbn [p_refs]. rewrite Nat.eqb_refl in *. rewrite Q in X. destruct X. split; [lia|]. destruct (Z.eqb_spec (p_refs q - 1) 0); lia.
    + rewrite upd_other by auto. destruct (Nat.eqb_spec p r); [contradiction|]. auto.
Qed.
(* the source of p goes away, except if it is being called; its reference is about to be dropped *)
Lemma inv_without s y p : Inv None s -> In y (s_srcs s) -> c_owner y = Some p -> c_stat y = SIdle -> Inv (Some p) (set_srcs s (without (s_srcs s) (c_ctx y) (c_id y))).
Proof.
  intros I Y O St. pose proof (i_ids _ _ I) as N. constructor; try apply I; flat.
  - intros r. unfold slots, nsrcs, finals. flat. fold (slots r s) (finals r s). rewrite sumz_without by auto. fold (nsrcs r s). rewrite O. pose proof (i_refs _ _ I r) as X. cbn [hold] in *.
    destruct (nth_error (s_pools s) r) as [[q|]|]; [destruct X; split; auto; lia|..].
    all: assert (hold r (c_owner y) <= nsrcs r s) by (apply (sumz_in (fun y => hold r (c_owner y))); auto); rewrite O in *; cbn [hold] in *; pose proof (hold_nonneg r (Some p)); cbn [hold] in *; lia.
  - intros t th f r c id E F G. destruct (i_run _ _ I _ _ _ _ _ _ E F G) as (st & S & Z). exists st. split; auto. apply without_in. split; auto. intros P. assert (Src c id (Some r) st = y) by (eapply pair_inj; eauto). subst y. contradiction.
  - intros z Z. apply without_in in Z. apply (i_busy _ _ I). tauto.
  - apply nodup_filter. auto.
  - intros z Z. apply without_in in Z. apply (i_next _ _ I). tauto.
  - intros z Z. apply without_in in Z. apply (i_closed _ _ I). tauto.
Qed.
Lemma inv_without_other s y : Inv None s -> In y (s_srcs s) -> c_owner y = None -> Inv None (set_srcs s (without (s_srcs s) (c_ctx y) (c_id y))).
Proof.
  intros I Y O. pose proof (i_ids _ _ I) as N. constructor; try apply I; flat.
  - intros r. unfold slots, nsrcs, finals. flat. fold (slots r s) (finals r s). rewrite sumz_without by auto. fold (nsrcs r s). rewrite O. pose proof (i_refs _ _ I r) as X. cbn [hold] in *.
    destruct (nth_error (s_pools s) r) as [[q|]|]; [destruct X; split; auto; lia|..]; lia.
  - intros t th f r c id E F G. destruct (i_run _ _ I _ _ _ _ _ _ E F G) as (st & S & Z). exists st. split; auto. apply without_in. split; auto. intros P. assert (Src c id (Some r) st = y) by (eapply pair_inj; eauto). subst y. discriminate.
  - intros z Z. apply without_in in Z. apply (i_busy _ _ I). tauto.
  - apply nodup_filter. auto.
  - intros z Z. apply without_in in Z. apply (i_next _ _ I). tauto.
  - intros z Z. apply without_in in Z. apply (i_closed _ _ I). tauto.
Qed.
Lemma run_in s t th f p c id : nth_error (s_threads s) t = Some th -> In f (t_stack th) -> fcaller f = Some (p, WIdle c id) -> 1 <= runs c id s.
Proof.
  intros E F G. assert (runw c id (fcaller f) = 1) as <- by (rewrite G; cbn; rewrite !Nat.eqb_refl; auto). transitivity (sumz (fun f => runw c id (fcaller f)) (t_stack th)).
  - apply (sumz_in (fun f => runw c id (fcaller f))); auto.
  - apply (sumz_in (fun th => sumz (fun f => runw c id (fcaller f)) (t_stack th))); [intros; apply sumz_nonneg; auto|eapply nth_error_In; eauto].
Qed.
Lemma shape_tl f k : shape (f :: k) -> shape k.
Proof. destruct f; cbn; auto. intros ->. exact Logic.I. Qed.
(* a call of a source returns: the source goes away, its reference is about to be dropped *)
Lemma inv_idle_end s t th f k p c id : Inv None s -> nth_error (s_threads s) t = Some th -> t_stack th = f :: k -> fcaller f = Some (p, WIdle c id) ->
  Inv (Some p) (set_srcs (set_threads s (upd (s_threads s) t (with_stack th k))) (without (s_srcs s) c id)).
Proof.
  intros I E K G. pose proof (i_ids _ _ I) as N. set (th' := with_stack th k). pose proof (upd_same _ _ _ E th') as Eq.
  assert (Fi : In f (t_stack th)) by (rewrite K; cbn; auto). destruct (i_run _ _ I _ _ _ _ _ _ E Fi G) as (st & S & Y).
  assert (Fn : forall r, sumz (fun th => sumz (fun f => finalw r (fcaller f)) (t_stack th)) (upd (s_threads s) t th') = finals r s). { intros r. rewrite (sumz_upd _ _ _ _ th' E). unfold finals. rewrite K. cbn. rewrite G. cbn. lia. }
  assert (Rn : forall c' id', sumz (fun th => sumz (fun f => runw c' id' (fcaller f)) (t_stack th)) (upd (s_threads s) t th') = runs c' id' s - runw c' id' (fcaller f)). { intros c' id'. rewrite (sumz_upd _ _ _ _ th' E). unfold runs. rewrite K. cbn. lia. }
  assert (Sl : forall r, sumz (fun th => hold r (t_slot th)) (upd (s_threads s) t th') = slots r s). { intros r. rewrite (sumz_upd _ _ _ _ th' E). unfold slots. cbn. lia. }
  assert (R0 : runs c id s - runw c id (fcaller f) = 0). { pose proof (i_runs _ _ I c id). pose proof (run_in _ _ _ _ _ _ _ E Fi G). rewrite G. cbn. rewrite !Nat.eqb_refl. cbn. lia. }
  assert (Th : forall u thu, nth_error (upd (s_threads s) t th') u = Some thu -> exists thu0, nth_error (s_threads s) u = Some thu0 /\ t_slot thu = t_slot thu0 /\ t_ctx thu = t_ctx thu0 /\ (t_stack thu = t_stack thu0 \/ t_stack thu0 = f :: t_stack thu)).
  { intros u thu Eu. destruct (Nat.eq_dec t u) as [<-|Ne]; [assert (thu = th') as -> by congruence; exists th; cbn; auto 10|rewrite upd_other in Eu by auto; exists thu; auto]. }
  set (s' := set_srcs _ _). assert (Rn' : forall c' id', runs c' id' s' = runs c' id' s - runw c' id' (fcaller f)) by (intros; apply Rn).
  constructor; subst s'; flat.
  - intros r. unfold slots, nsrcs, finals. flat. rewrite Sl, Fn. pose proof (sumz_without (fun x => hold r (c_owner x)) _ _ N Y) as W. cbn [c_ctx c_id c_owner] in W. rewrite W. fold (nsrcs r s).
    pose proof (i_refs _ _ I r) as X. cbn [hold] in *. destruct (nth_error (s_pools s) r) as [[q|]|]; [destruct X; split; auto; lia|..].
    all: assert (H : hold r (Some p) <= nsrcs r s) by (apply (sumz_in (fun y => hold r (c_owner y)) _ _ (fun _ => hold_nonneg _ _) Y)); pose proof (hold_nonneg r (Some p)); cbn [hold] in *; lia.
  - apply (i_own _ _ I).
  - intros u thu g r Eu Gi Gc. destruct (Th u thu Eu) as (thu0 & E0 & -> & _ & [K0|K0]); [rewrite K0 in Gi|]; eapply i_slot; eauto. rewrite K0. cbn. auto.
  - intros u thu g r c' id' Eu Gi Gc. pose proof (run_in (set_srcs (set_threads s (upd (s_threads s) t th')) (without (s_srcs s) c id)) _ _ _ _ _ _ Eu Gi Gc) as RI. rewrite Rn' in RI.
    destruct (Th u thu Eu) as (thu0 & E0 & _ & _ & K0). assert (Gi0 : In g (t_stack thu0)) by (destruct K0 as [K0|K0]; [congruence|rewrite K0; cbn; auto]).
    destruct (i_run _ _ I _ _ _ _ _ _ E0 Gi0 Gc) as (st' & S' & Y'). exists st'. split; auto. apply without_in. split; auto. cbn. intros P. injection P as -> ->. lia.
  - intros c' id'. rewrite Rn'. pose proof (i_runs _ _ I c' id'). pose proof (runw_nonneg c' id' (fcaller f)). lia.
  - intros z Z Sz. apply without_in in Z. destruct Z as (Z & P). rewrite Rn'. destruct (i_busy _ _ I z Z Sz) as (B & O). split; auto. rewrite B. rewrite G. cbn.
    destruct (Nat.eqb_spec c (c_ctx z)), (Nat.eqb_spec id (c_id z)); cbn; try lia. exfalso. apply P. unfold pair_of. congruence.
  - apply nodup_filter. auto.
  - intros z Z. apply without_in in Z. apply (i_next _ _ I). tauto.
  - intros u thu Eu. destruct (Th u thu Eu) as (thu0 & E0 & _ & -> & _). apply (i_ctx _ _ I _ _ E0).
  - apply (i_pos _ _ I).
  - intros u thu Eu. destruct (Nat.eq_dec t u) as [<-|Ne]; [assert (thu = th') as -> by congruence|rewrite upd_other in Eu by auto; eapply i_shape; eauto]. cbn. destruct (i_shape _ _ I _ _ E) as (S1 & S2). rewrite K in *. split; [eapply shape_tl; eauto|intros _; apply S2; discriminate].
  - exact (i_zero _ _ I).
  - intros z Z. apply without_in in Z. apply (i_closed _ _ I). tauto.
Qed.
(* the pool is freed *)
Lemma inv_gone s t th f k p : Inv None s -> nth_error (s_threads s) t = Some th -> t_stack th = f :: k -> fcaller f = Some (p, WFinal) ->
  Inv None (set_pool (set_threads s (upd (s_threads s) t (with_stack th k))) p None).
Proof.
  intros I E K G. assert (Fi : In f (t_stack th)) by (rewrite K; cbn; auto). destruct (frame_live _ _ _ _ _ _ I E Fi G) as (q & Q & Z). pose proof (proj1 Z eq_refl) as Z0. set (th' := with_stack th k). pose proof (upd_same _ _ _ E th') as Eq.
  assert (Fn : forall r, sumz (fun th => sumz (fun f => finalw r (fcaller f)) (t_stack th)) (upd (s_threads s) t th') = finals r s - hold r (Some p)). { intros r. rewrite (sumz_upd _ _ _ _ th' E). unfold finals. rewrite K. cbn. rewrite G. cbn. lia. }
  assert (Rn : forall c' id', sumz (fun th => sumz (fun f => runw c' id' (fcaller f)) (t_stack th)) (upd (s_threads s) t th') = runs c' id' s). { intros c' id'. rewrite (sumz_upd _ _ _ _ th' E). unfold runs. rewrite K. cbn. rewrite G. cbn. lia. }
  assert (Sl : forall r, sumz (fun th => hold r (t_slot th)) (upd (s_threads s) t th') = slots r s). { intros r. rewrite (sumz_upd _ _ _ _ th' E). unfold slots. cbn. lia. }
  assert (Th : forall u thu, nth_error (upd (s_threads s) t th') u = Some thu -> exists thu0, nth_error (s_threads s) u = Some thu0 /\ t_slot thu = t_slot thu0 /\ t_ctx thu = t_ctx thu0 /\ (t_stack thu = t_stack thu0 \/ t_stack thu0 = f :: t_stack thu)).
  { intros u thu Eu. destruct (Nat.eq_dec t u) as [<-|Ne]; [assert (thu = th') as -> by congruence; exists th; cbn; auto 10|rewrite upd_other in Eu by auto; exists thu; auto]. }
  assert (Fi' : forall u thu thu0 g, nth_error (s_threads s) u = Some thu0 -> (t_stack thu = t_stack thu0 \/ t_stack thu0 = f :: t_stack thu) -> In g (t_stack thu) -> In g (t_stack thu0)).
  { intros u thu thu0 g _ [K0|K0] Gi; [congruence|rewrite K0; cbn; auto]. }
  constructor; unfold slots, nsrcs, finals, runs; flat.
  - intros r. rewrite Sl, Fn. fold (nsrcs r s). pose proof (i_refs _ _ I r) as X. destruct (Nat.eq_dec p r) as [<-|Ne].
    + rewrite (upd_same _ _ _ Q). rewrite Q in X. destruct X as (X1 & X2). rewrite Z0 in *. change (0 =? 0) with true in X2. cbn [hold] in *. rewrite Nat.eqb_refl.
      pose proof (i_own _ _ I p). pose proof (slots_nonneg p s). pose proof (nsrcs_nonneg p s). repeat split; lia.
    + rewrite upd_other by auto. cbn [hold]. destruct (Nat.eqb_spec p r); [contradiction|]. destruct (nth_error (s_pools s) r) as [[?|]|]; cbn [hold] in X; [destruct X; split|..]; lia.
  - apply (i_own _ _ I).
  - intros u thu g r Eu Gi Gc. destruct (Th u thu Eu) as (thu0 & E0 & -> & _ & K0). eapply i_slot; eauto.
  - intros u thu g r c' id' Eu Gi Gc. destruct (Th u thu Eu) as (thu0 & E0 & _ & _ & K0). eapply i_run; eauto.
  - intros c' id'. rewrite Rn. apply (i_runs _ _ I).
  - intros z Zi Sz. rewrite Rn. apply (i_busy _ _ I); auto.
  - apply (i_ids _ _ I).
  - apply (i_next _ _ I).
  - intros u thu Eu. destruct (Th u thu Eu) as (thu0 & E0 & _ & -> & _). apply (i_ctx _ _ I _ _ E0).
  - apply (i_pos _ _ I).
  - intros u thu Eu. destruct (Nat.eq_dec t u) as [<-|Ne]; [assert (thu = th') as -> by congruence|rewrite upd_other in Eu by auto; eapply i_shape; eauto]. cbn. destruct (i_shape _ _ I _ _ E) as (S1 & S2). rewrite K in *. split; [eapply shape_tl; eauto|intros _; apply S2; discriminate].
  - exact (i_zero _ _ I).
  - exact (i_closed _ _ I).
Qed.
(* a source is called *)
Lemma inv_dispatch s t th f y p : Inv None s -> nth_error (s_threads s) t = Some th -> exists_thread th = true -> In y (s_srcs s) -> c_owner y = Some p -> c_stat y = SIdle -> fcaller f = Some (p, WIdle (c_ctx y) (c_id y)) -> (forall n, f <> FExit n) -> is_open s (c_ctx y) = true ->
  Inv None (set_threads (set_srcs s (mark (s_srcs s) (c_ctx y) (c_id y) SRun)) (upd (s_threads s) t (with_stack th (f :: t_stack th)))).
Proof.
  intros I E EX Y O St G NE OP. pose proof (i_ids _ _ I) as N. set (th' := with_stack th (f :: t_stack th)). pose proof (upd_same _ _ _ E th') as Eq.
  assert (Fn : forall r, sumz (fun th => sumz (fun f => finalw r (fcaller f)) (t_stack th)) (upd (s_threads s) t th') = finals r s). { intros r. rewrite (sumz_upd _ _ _ _ th' E). unfold finals. cbn. rewrite G. cbn. lia. }
  assert (Rn : forall c' id', sumz (fun th => sumz (fun f => runw c' id' (fcaller f)) (t_stack th)) (upd (s_threads s) t th') = runs c' id' s + runw c' id' (fcaller f)). { intros c' id'. rewrite (sumz_upd _ _ _ _ th' E). unfold runs. cbn. lia. }
  assert (Sl : forall r, sumz (fun th => hold r (t_slot th)) (upd (s_threads s) t th') = slots r s). { intros r. rewrite (sumz_upd _ _ _ _ th' E). unfold slots. cbn. lia. }
  assert (R0 : runs (c_ctx y) (c_id y) s = 0).
  { pose proof (runs_nonneg (c_ctx y) (c_id y) s). destruct (Z_lt_dec 0 (runs (c_ctx y) (c_id y) s)) as [L|]; [|lia]. exfalso. unfold runs in L. apply sumz_pos in L; [|intros; apply sumz_nonneg; auto]. destruct L as (th1 & T1 & L). apply sumz_pos in L; auto. destruct L as (g & G1 & L).
    apply In_nth_error in T1. destruct T1 as (u & T1). destruct (fcaller g) as [(r & [|c' id'|])|] eqn:GC; cbn in L; try lia. destruct (Nat.eqb_spec c' (c_ctx y)) as [->|]; cbn in L; [|lia]. destruct (Nat.eqb_spec id' (c_id y)) as [->|]; cbn in L; [|lia].
    destruct (i_run _ _ I _ _ _ _ _ _ T1 G1 GC) as (st & S & Z). assert (y = Src (c_ctx y) (c_id y) (Some r) st) by (eapply pair_inj; eauto). rewrite H0 in St. cbn in St. contradiction. }
  assert (Th : forall u thu, nth_error (upd (s_threads s) t th') u = Some thu -> exists thu0, nth_error (s_threads s) u = Some thu0 /\ t_slot thu = t_slot thu0 /\ t_ctx thu = t_ctx thu0 /\ (forall g, In g (t_stack thu) -> g = f \/ In g (t_stack thu0))).
  { intros u thu Eu. destruct (Nat.eq_dec t u) as [<-|Ne]; [assert (thu = th') as -> by congruence; exists th; cbn; repeat split; auto; intros g [<-|]; auto|rewrite upd_other in Eu by auto; exists thu; auto]. }
  constructor; unfold slots, nsrcs, finals, runs; flat.
  - intros r. rewrite Sl, Fn, (mark_owner (hold r)). apply (i_refs _ _ I).
  - apply (i_own _ _ I).
  - intros u thu g r Eu Gi Gc. destruct (Th u thu Eu) as (thu0 & E0 & -> & _ & K0). destruct (K0 g Gi) as [->|Gi0]; [congruence|eapply i_slot; eauto].
  - intros u thu g r c' id' Eu Gi Gc. destruct (Th u thu Eu) as (thu0 & E0 & _ & _ & K0). destruct (K0 g Gi) as [->|Gi0].
    + rewrite G in Gc. injection Gc as <- <- <-. exists SRun. split; [discriminate|]. apply mark_in. left. exists y. rewrite O. auto.
    + destruct (i_run _ _ I _ _ _ _ _ _ E0 Gi0 Gc) as (st & S & Z). exists st. split; auto. apply mark_in. right. split; auto. intros P. assert (y = Src c' id' (Some r) st) by (eapply pair_inj; eauto; symmetry; exact P). subst y. contradiction.
  - intros c' id'. rewrite Rn. rewrite G. cbn. destruct (Nat.eqb_spec (c_ctx y) c'); cbn; [|pose proof (i_runs _ _ I c' id'); lia]. destruct (Nat.eqb_spec (c_id y) id'); cbn; [subst; lia|pose proof (i_runs _ _ I c' id'); lia].
  - intros z Z Sz. rewrite Rn. apply mark_in in Z. rewrite G. cbn. destruct Z as [(y' & Y' & P & ->)|(Z & P)].
    + cbn. assert (y' = y) as -> by (eapply pair_inj; eauto). rewrite O, !Nat.eqb_refl, R0. cbn. split; [auto|discriminate].
    + destruct (i_busy _ _ I z Z Sz) as (B & B'). split; auto. rewrite B. destruct (Nat.eqb_spec (c_ctx y) (c_ctx z)), (Nat.eqb_spec (c_id y) (c_id z)); cbn; try lia. exfalso. apply P. unfold pair_of. congruence.
  - rewrite mark_pairs. auto.
  - intros z Z. apply mark_in in Z. destruct Z as [(y' & Y' & P & ->)|(Z & P)]; [|apply (i_next _ _ I); auto]. cbn. apply (i_next _ _ I y Y).
  - intros u thu Eu. destruct (Th u thu Eu) as (thu0 & E0 & _ & -> & _). apply (i_ctx _ _ I _ _ E0).
  - apply (i_pos _ _ I).
  - intros u thu Eu. destruct (Nat.eq_dec t u) as [<-|Ne]; [assert (thu = th') as -> by congruence|rewrite upd_other in Eu by auto; eapply i_shape; eauto]. destruct (i_shape _ _ I _ _ E) as (S1 & S2). split; [|intros _; exact EX]. unfold th'. cbn [t_stack with_stack]. destruct f as [| | | | | |n|]; cbn [shape]; auto. destruct (NE n); auto.
  - exact (i_zero _ _ I).
  - intros z Z C. apply mark_in in Z. destruct Z as [(y' & Y' & P & ->)|(Z & P)]; [|apply (i_closed _ _ I); auto]. cbn [c_ctx] in C. unfold is_open in *. cbn [s_ctxs set_threads set_srcs] in C. congruence.
Qed.
(* a source which is being called is destroyed *)
Lemma inv_mark s y : Inv None s -> In y (s_srcs s) -> c_stat y <> SIdle -> Inv None (set_srcs s (mark (s_srcs s) (c_ctx y) (c_id y) SGone)).
Proof.
  intros I Y St. pose proof (i_ids _ _ I) as N. constructor; try apply I; flat.
  - intros r. unfold slots, nsrcs, finals. flat. rewrite (mark_owner (hold r)). apply (i_refs _ _ I).
  - intros t th f r c id E F G. destruct (i_run _ _ I _ _ _ _ _ _ E F G) as (st & S & Z). destruct (Nat.eq_dec c (c_ctx y)) as [->|]; [destruct (Nat.eq_dec id (c_id y)) as [->|]|].
    + exists SGone. split; [discriminate|]. apply mark_in. left. exists (Src (c_ctx y) (c_id y) (Some r) st). auto.
    + exists st. split; auto. apply mark_in. right. split; auto. unfold pair_of. cbn. congruence.
    + exists st. split; auto. apply mark_in. right. split; auto. unfold pair_of. cbn. congruence.
  - intros z Z Sz. apply mark_in in Z. destruct Z as [(y' & Y' & P & ->)|(Z & P)]; [|apply (i_busy _ _ I); auto]. assert (y' = y) as -> by (eapply pair_inj; eauto). cbn. apply (i_busy _ _ I); auto.
  - rewrite mark_pairs. auto.
  - intros z Z. apply mark_in in Z. destruct Z as [(y' & Y' & P & ->)|(Z & P)]; [|apply (i_next _ _ I); auto]. cbn. apply (i_next _ _ I y Y).
  - intros z Z C. apply mark_in in Z. destruct Z as [(y' & Y' & P & ->)|(Z & P)]; [|apply (i_closed _ _ I); auto]. cbn [c_ctx] in C. exfalso. apply St. apply (i_closed _ _ I); auto.
Qed.
(* ---------------- new sources, pools and contexts ---------------- *)
Definition attached (s : state) (c id : nat) (o : option nat) : state := emit (set_ctxs (set_srcs s (s_srcs s ++ [Src c id o SIdle])) (upd (s_ctxs s) c (S id, true))) (ESource c id o).
Lemma open_next s c : is_open s c = true -> exists id, nth_error (s_ctxs s) c = Some (id, true).
Proof. unfold is_open. destruct (nth_error (s_ctxs s) c) as [(id & b)|]; [|discriminate]. intros ->. eauto. Qed.
Lemma inv_source s c id o l : Inv None s -> nth_error (s_ctxs s) c = Some (id, true) -> match o with None => l = s_pools s | Some p => exists q q', nth_error (s_pools s) p = Some (Some q) /\ 0 < p_refs q /\ p_refs q' = p_refs q + 1 /\ l = upd (s_pools s) p (Some q') end ->
  Inv None (set_pools (attached s c id o) l).
Proof.
  intros I E L. assert (Nw : ~ In (c, id) (map pair_of (s_srcs s))).
  { intros H. apply in_map_iff in H. destruct H as (y & P & Y). destruct (i_next _ _ I y Y) as (n & b & E' & _ & H). unfold pair_of in P. injection P as <- <-. rewrite E in E'. injection E' as <- <-. specialize (H eq_refl). lia. }
  assert (R0 : forall t th f r, nth_error (s_threads s) t = Some th -> In f (t_stack th) -> fcaller f = Some (r, WIdle c id) -> False).
  { intros t th f r Et Fi Fc. destruct (i_run _ _ I _ _ _ _ _ _ Et Fi Fc) as (st & _ & Y). apply Nw. apply (in_map pair_of) in Y. exact Y. }
  unfold attached. constructor; unfold slots, nsrcs, finals, runs; flat.
  - intros r. rewrite sumz_app. cbn [sumz c_owner owned]. fold (slots r s) (nsrcs r s) (finals r s). pose proof (i_refs _ _ I r) as X. destruct o as [p|].
    + destruct L as (q & q' & Q & P & Rq & ->). destruct (Nat.eq_dec p r) as [<-|Ne].
      * rewrite (upd_same _ _ _ Q). rewrite Q in X. destruct X as (X1 & X2). rewrite hold_same. split; [lia|]. rewrite X2. destruct (Z.eqb_spec (p_refs q) 0), (Z.eqb_spec (p_refs q') 0); lia.
      * rewrite upd_other by auto. cbn [hold]. destruct (Nat.eqb_spec p r); [contradiction|]. destruct (nth_error (s_pools s) r) as [[?|]|]; cbn [hold] in X; [destruct X; split|..]; lia.
    + subst l. cbn [hold]. destruct (nth_error (s_pools s) r) as [[?|]|]; cbn [hold] in X; [destruct X; split|..]; lia.
  - apply (i_own _ _ I).
  - apply (i_slot _ _ I).
  - intros t th f r c' id' Et Fi Fc. destruct (i_run _ _ I _ _ _ _ _ _ Et Fi Fc) as (st & St & Y). exists st. split; auto. apply in_app_iff. auto.
  - apply (i_runs _ _ I).
  - intros y Y Sy. apply in_app_iff in Y. destruct Y as [Y|[<-|[]]]; [apply (i_busy _ _ I); auto|cbn in Sy; congruence].
  - rewrite map_app. cbn [map pair_of c_ctx c_id]. apply NoDup_Add with (a := (c, id)) (l := map pair_of (s_srcs s)); [|split; auto; apply (i_ids _ _ I)]. unfold pair_of. cbn. clear. induction (s_srcs s) as [|a l IH]; cbn; constructor; auto.
  - intros y Y. apply in_app_iff in Y. destruct Y as [Y|[<-|[]]].
    + destruct (i_next _ _ I y Y) as (n & b & E' & Nz & H). destruct (Nat.eq_dec c (c_ctx y)) as [->|Ne].
      * exists (S id), true. rewrite (upd_same _ _ _ E). split; auto. split; auto. intros _. rewrite E in E'. injection E' as <- <-. specialize (H eq_refl). lia.
      * exists n, b. rewrite upd_other by auto. auto.
    + cbn. exists (S id), true. rewrite (upd_same _ _ _ E). split; auto. pose proof (i_pos _ _ I c id E). split; lia.
  - intros t th Et. unfold is_open. flat. destruct (Nat.eq_dec c (t_ctx th)) as [->|Ne]; [rewrite (upd_same _ _ _ E); auto|rewrite upd_other by auto; apply (i_ctx _ _ I _ _ Et)].
  - intros c' n E'. destruct (Nat.eq_dec c c') as [->|Ne]; [rewrite (upd_same _ _ _ E) in E'; injection E' as <-; lia|rewrite upd_other in E' by auto; eapply i_pos; eauto].
  - apply (i_shape _ _ I).
  - unfold is_open. flat. destruct c as [|c]; [rewrite (upd_same _ _ _ E); auto|rewrite upd_other by discriminate; apply (i_zero _ _ I)].
  - intros y Y C. apply in_app_iff in Y. destruct Y as [Y|[<-|[]]]; [|reflexivity]. apply (i_closed _ _ I); auto. unfold is_open in *. cbn [s_ctxs emit set_pools set_ctxs set_srcs] in C. destruct (Nat.eq_dec c (c_ctx y)) as [Q|Ne]; [rewrite <- Q, (upd_same _ _ _ E) in C; discriminate|rewrite upd_other in C by auto; auto].
Qed.
Lemma inv_new s t th : Inv None s -> nth_error (s_threads s) t = Some th -> t_slot th = None ->
  Inv None (set_threads (set_pools s (s_pools s ++ [Some (Pool 1 0 (t_self th) [])])) (upd (s_threads s) t (with_slot th (Some (length (s_pools s)))))).
Proof.
  intros I E N. set (th' := with_slot th _). set (p := length (s_pools s)) in *. pose proof (upd_same _ _ _ E th') as Eq.
  assert (Fn : forall r, sumz (fun th => sumz (fun f => finalw r (fcaller f)) (t_stack th)) (upd (s_threads s) t th') = finals r s). { intros r. rewrite (sumz_upd _ _ _ _ th' E). unfold finals. cbn. lia. }
  assert (Rn : forall c' id', sumz (fun th => sumz (fun f => runw c' id' (fcaller f)) (t_stack th)) (upd (s_threads s) t th') = runs c' id' s). { intros c' id'. rewrite (sumz_upd _ _ _ _ th' E). unfold runs. cbn. lia. }
  assert (Sl : forall r, sumz (fun th => hold r (t_slot th)) (upd (s_threads s) t th') = slots r s + hold r (Some p)). { intros r. rewrite (sumz_upd _ _ _ _ th' E). unfold slots. rewrite N. cbn. lia. }
  assert (Th : forall u thu, nth_error (upd (s_threads s) t th') u = Some thu -> exists thu0, nth_error (s_threads s) u = Some thu0 /\ (t_slot thu0 <> None -> t_slot thu = t_slot thu0) /\ t_ctx thu = t_ctx thu0 /\ t_stack thu = t_stack thu0 /\ t_life thu = t_life thu0).
  { intros u thu Eu. destruct (Nat.eq_dec t u) as [<-|Ne]; [assert (thu = th') as -> by congruence; exists th; cbn; repeat split; auto; congruence|rewrite upd_other in Eu by auto; exists thu; auto]. }
  assert (P0 : nth_error (s_pools s) p = None) by (apply nth_error_None; unfold p; lia).
  constructor; unfold slots, nsrcs, finals, runs; flat.
  - intros r. rewrite Sl, Fn. fold (nsrcs r s). pose proof (i_refs _ _ I r) as X. destruct (Nat.eq_dec p r) as [<-|Ne].
    + rewrite P0 in X. rewrite nth_error_app2 by (unfold p; lia). replace (p - length (s_pools s))%nat with 0%nat by (unfold p; lia). cbn [nth_error p_refs]. rewrite hold_same. split; [lia|]. change (1 =? 0) with false. cbn iota. lia.
    + cbn [hold]. destruct (Nat.eqb_spec p r); [contradiction|]. destruct (lt_dec r p) as [Lt|Ge].
      * rewrite nth_error_app1 by auto. destruct (nth_error (s_pools s) r) as [[?|]|]; cbn [hold] in X; [destruct X; split|..]; lia.
      * rewrite (proj2 (nth_error_None _ _)) in X by (unfold p in *; lia). rewrite (proj2 (nth_error_None _ _)) by (rewrite app_length; cbn; unfold p in *; lia). cbn [hold] in X. lia.
  - apply (i_own _ _ I).
  - intros u thu f r Eu Fi Fc. destruct (Th u thu Eu) as (thu0 & E0 & S0 & _ & K & _). rewrite K in Fi. pose proof (i_slot _ _ I _ _ _ _ E0 Fi Fc) as H. rewrite S0; auto. congruence.
  - intros u thu f r c id Eu Fi Fc. destruct (Th u thu Eu) as (thu0 & E0 & S0 & _ & K & _). rewrite K in Fi. eapply i_run; eauto.
  - intros c id. rewrite Rn. apply (i_runs _ _ I).
  - intros y Y Sy. rewrite Rn. apply (i_busy _ _ I); auto.
  - apply (i_ids _ _ I).
  - apply (i_next _ _ I).
  - intros u thu Eu. destruct (Th u thu Eu) as (thu0 & E0 & _ & -> & _). apply (i_ctx _ _ I _ _ E0).
  - apply (i_pos _ _ I).
  - intros u thu Eu. destruct (Th u thu Eu) as (thu0 & E0 & _ & _ & -> & L). destruct (i_shape _ _ I _ _ E0) as (A & B). split; auto. unfold exists_thread in *. rewrite L. auto.
  - exact (i_zero _ _ I).
  - exact (i_closed _ _ I).
Qed.
Lemma inv_close s c : Inv None s -> unused s c = true -> Inv None (set_ctxs s (upd (s_ctxs s) c (0%nat, false))).
Proof.
  intros I U. unfold unused in U. rewrite !andb_true_iff in U. destruct U as (((U1 & U2) & U3) & U4). destruct (open_next s c U2) as (id & E). rewrite forallb_forall in U3.
  constructor; try apply I; flat.
  - intros y Y. destruct (i_next _ _ I y Y) as (n & b & E' & Nz & H). destruct (Nat.eq_dec c (c_ctx y)) as [->|Ne]; [exists 0%nat, false; rewrite (upd_same _ _ _ E); auto|exists n, b; rewrite upd_other by auto; auto].
    split; auto. split; auto. discriminate.
  - intros t th Et. unfold is_open. flat. specialize (U3 th (nth_error_In _ _ Et)). apply negb_true_iff, Nat.eqb_neq in U3. rewrite upd_other by auto. apply (i_ctx _ _ I _ _ Et).
  - intros c' n E'. destruct (Nat.eq_dec c c') as [->|Ne]; [rewrite (upd_same _ _ _ E) in E'; discriminate|rewrite upd_other in E' by auto; eapply i_pos; eauto].
  - unfold is_open. flat. destruct c as [|c]; [discriminate U1|]. rewrite upd_other by discriminate. apply (i_zero _ _ I).
  - intros y Y C. unfold is_open in C. cbn [s_ctxs set_ctxs] in C. destruct (Nat.eq_dec c (c_ctx y)) as [Q|Ne].
    + rewrite forallb_forall in U4. specialize (U4 y Y). rewrite <- Q, Nat.eqb_refl in U4. cbn in U4. destruct (c_stat y); auto; discriminate.
    + rewrite upd_other in C by auto. apply (i_closed _ _ I); auto.
Qed.

(* ---------------- steps ---------------- *)
Lemma default_ok s t th s' p : Inv None s -> nth_error (s_threads s) t = Some th -> get_default s t th = (s', p) ->
  Inv None s' /\ nth_error (s_threads s') t = Some (with_slot th (Some p)) /\ s_ctxs s' = s_ctxs s /\ s_srcs s' = s_srcs s /\ (exists q, nth_error (s_pools s') p = Some (Some q) /\ 0 < p_refs q).
Proof.
  intros I E. unfold get_default. destruct (t_slot th) as [p0|] eqn:Sl; intros G; injection G as <- <-.
  - split; [apply inv_emit; auto|]. flat. split; [rewrite E; f_equal; unfold with_slot; destruct th; cbn in *; subst; auto|]. split; auto. split; auto. eapply slot_live; eauto.
  - rewrite (on_thread_eq _ _ th) by exact E. flat. assert (J : Inv None (set_threads (set_pools s (s_pools s ++ [Some (Pool 1 0 (t_self th) [])])) (upd (s_threads s) t (with_slot th (Some (length (s_pools s))))))) by (apply inv_new; auto).
    apply (inv_emit _ _ (ENew t (length (s_pools s)))) in J; [|reflexivity]. apply (inv_emit _ _ (EDefault t (length (s_pools s)))) in J; [|reflexivity]. unfold emit, set_threads, set_pools in J. cbn in J. split; [exact J|].
    split; [apply (upd_same _ _ _ E)|]. split; auto. split; auto. exists (Pool 1 0 (t_self th) []). split; [rewrite nth_error_app2, Nat.sub_diag by lia; auto|cbn; lia].
Qed.
(* the frame in progress is replaced by one of the same drain *)
Lemma inv_swap s t th f k g : Inv None s -> nth_error (s_threads s) t = Some th -> t_stack th = f :: k -> fcaller g = fcaller f -> fcaller f <> None -> Inv None (swap s t g).
Proof.
  intros I E K G NN. rewrite (swap_eq _ _ _ _ _ g E K). destruct (i_shape _ _ I _ _ E) as (S1 & S2). rewrite K in *.
  eapply inv_thread; eauto; cbn [t_slot t_stack t_ctx with_stack]; try solve [rewrite K; cbn [sumz]; intros; rewrite G; auto].
  - intros f' p [<-|Fi] Fc; [apply (i_slot _ _ I t th f p E); [rewrite K; cbn; auto|congruence]|apply (i_slot _ _ I t th f' p E); [rewrite K; cbn; auto|auto]].
  - intros f' p c id [<-|Fi] Fc; [exists f|exists f']; (split; [rewrite K; cbn; auto|congruence]).
  - apply (i_ctx _ _ I _ _ E).
  - destruct g; cbn [fcaller] in G; try congruence; cbn [shape]; eapply shape_tl; eauto.
  - intros _. unfold exists_thread in *. cbn. apply S2. discriminate.
Qed.
Lemma pool_at s p q : nth_error (s_pools s) p = Some (Some q) -> the_pool s p = Ok q.
Proof. unfold the_pool. intros ->. auto. Qed.
(* a frame which is not that of a source or of the end of a pool goes away *)
Lemma inv_pop s t th f k : Inv None s -> nth_error (s_threads s) t = Some th -> t_stack th = f :: k -> match fcaller f with Some (_, WClient) | None => True | _ => False end -> Inv None (pop s t).
Proof.
  intros I E K G. rewrite (pop_eq _ _ _ _ _ E K). destruct (i_shape _ _ I _ _ E) as (S1 & S2). rewrite K in *.
  eapply inv_thread; eauto; cbn [t_slot t_stack t_ctx with_stack].
  - intros p. rewrite K. cbn [sumz]. destruct (fcaller f) as [(r & [|c id|])|]; try contradiction; cbn; lia.
  - intros c' id'. rewrite K. cbn [sumz]. destruct (fcaller f) as [(r & [|c id|])|]; try contradiction; cbn; lia.
  - intros f' p Fi Fc. apply (i_slot _ _ I t th f' p E); auto. rewrite K. cbn. auto.
  - intros f' p c id Fi Fc. exists f'. split; auto. rewrite K. cbn. auto.
  - apply (i_ctx _ _ I _ _ E).
  - eapply shape_tl; eauto.
  - intros _. unfold exists_thread in *. cbn. apply S2. discriminate.
Qed.
(* a frame which is not that of a source or of the end of a pool begins *)
Lemma inv_push s t th f : Inv None s -> nth_error (s_threads s) t = Some th -> exists_thread th = true -> (forall n, f <> FExit n) -> match fcaller f with Some (p, WClient) => t_slot th = Some p | None => True | _ => False end -> Inv None (push s t f).
Proof.
  intros I E EX NE G. rewrite (push_eq _ _ _ _ E). destruct (i_shape _ _ I _ _ E) as (S1 & S2).
  eapply inv_thread; eauto; cbn [t_slot t_stack t_ctx with_stack].
  - intros p. cbn [sumz]. destruct (fcaller f) as [(r & [|c id|])|]; try contradiction; cbn; lia.
  - intros c' id'. cbn [sumz]. destruct (fcaller f) as [(r & [|c id|])|]; try contradiction; cbn; lia.
  - intros f' p [<-|Fi] Fc; [rewrite Fc in G; exact G|]. apply (i_slot _ _ I t th f' p E); auto.
  - intros f' p c id [<-|Fi] Fc; [rewrite Fc in G; contradiction|]. exists f'. auto.
  - apply (i_ctx _ _ I _ _ E).
  - destruct f; cbn [shape]; auto. edestruct NE; eauto.
Qed.
Lemma drain_end_ok s t th f k p w : Inv None s -> nth_error (s_threads s) t = Some th -> t_stack th = f :: k -> fcaller f = Some (p, w) -> exists s', drain_end s t p w = Ok s' /\ Inv None s'.
Proof.
  intros I E K G. destruct (i_shape _ _ I _ _ E) as (S1 & S2). assert (EX : exists_thread th = true) by (apply S2; congruence). assert (Fi : In f (t_stack th)) by (rewrite K; cbn; auto).
  unfold drain_end. destruct w as [|c id|].
  - eexists. split; [reflexivity|]. apply inv_emit; auto. eapply inv_pop; eauto. rewrite G. exact Logic.I.
  - unfold idle_end. pose proof (inv_idle_end _ _ _ _ _ _ _ _ I E K G) as J. rewrite (pop_eq _ _ _ _ _ E K). eapply drop_ok; [|flat; apply (upd_same _ _ _ E)|exact EX].
    apply (inv_emit _ _ (EDrained t p (WIdle c id))) in J; [|reflexivity]. apply (inv_emit _ _ (EIdleEnd t c id p)) in J; [|reflexivity]. exact J.
  - destruct (frame_live _ _ _ _ _ _ I E Fi G) as (q & Q & _). rewrite (pop_eq _ _ _ _ _ E K). flat. rewrite Q. eexists. split; [reflexivity|]. pose proof (inv_gone _ _ _ _ _ _ I E K G) as J.
    apply (inv_emit _ _ (EDrained t p WFinal)) in J; [|reflexivity]. apply (inv_emit _ _ (EGone p)) in J; [|reflexivity]. exact J.
Qed.
Lemma loop_ok s t th k p w : Inv None s -> nth_error (s_threads s) t = Some th -> t_stack th = FLoop p w :: k -> exists s', loop s t p w = Ok s' /\ Inv None s'.
Proof.
  intros I E K. assert (Fi : In (FLoop p w) (t_stack th)) by (rewrite K; cbn; auto). destruct (frame_live _ _ _ _ _ _ I E Fi eq_refl) as (q & Q & _). unfold loop. rewrite (pool_at _ _ _ Q). cbn [bind]. destruct (p_items q) as [|i l].
  - destruct (Nat.eqb (p_idle q) 0); [eapply drain_end_ok; eauto; reflexivity|]. eexists. split; [reflexivity|]. eapply inv_swap with (th := th); [|exact E|exact K|reflexivity|discriminate]. eapply inv_pool; eauto.
  - eexists. split; [reflexivity|]. eapply inv_swap with (th := th); [|exact E|exact K|reflexivity|discriminate]. apply inv_emit; auto. eapply inv_pool; eauto.
Qed.
Lemma remove_ok s t th k p id w : Inv None s -> nth_error (s_threads s) t = Some th -> t_stack th = FRemove p id w :: k -> exists s', remove s t p id w = Ok s' /\ Inv None s'.
Proof.
  intros I E K. destruct (i_shape _ _ I _ _ E) as (S1 & S2). assert (EX : exists_thread th = true) by (apply S2; congruence).
  assert (J : Inv None (swap s t (FRemoved p w))) by (eapply inv_swap; [exact I|exact E|exact K|reflexivity|discriminate]). unfold remove. rewrite (swap_eq _ _ _ _ _ _ E K) in *. flat. pose proof (upd_same _ _ _ E (with_stack th (FRemoved p w :: k))) as Eq.
  destruct (find _ (s_srcs s)) as [y|] eqn:Fd; [|eexists; split; [reflexivity|apply inv_emit; auto]]. apply found in Fd. destruct Fd as (Y & P & Lv). unfold pair_of in P. injection P as P1 P2.
  apply (inv_emit _ _ (EUnsource t p id 0 (c_owner y))) in J; [|reflexivity]. unfold live in Lv. destruct (c_owner y) as [o|] eqn:Ow.
  - destruct (c_stat y) eqn:St; [| |discriminate].
    + eapply drop_ok; [|flat; exact Eq|exact EX]. pose proof (inv_without _ y o J Y Ow St) as X. rewrite P1, P2 in X. exact X.
    + eexists. split; [reflexivity|]. assert (St' : c_stat y <> SIdle) by congruence. pose proof (inv_mark _ y J Y St') as X. rewrite P1, P2 in X. exact X.
  - eexists. split; [reflexivity|]. pose proof (inv_without_other _ y J Y Ow) as X. rewrite P1, P2 in X. exact X.
Qed.
Lemma close_ok s t th k c : Inv None s -> nth_error (s_threads s) t = Some th -> t_stack th = FClose c :: k -> exists s', close_step s t c = Ok s' /\ Inv None s'.
Proof.
  intros I E K. destruct (i_shape _ _ I _ _ E) as (S1 & S2). assert (EX : exists_thread th = true) by (apply S2; congruence). unfold close_step.
  destruct (find _ (s_srcs s)) as [y|] eqn:Fd; [|eexists; split; [reflexivity|eapply inv_pop; eauto; exact Logic.I]]. apply find_some in Fd. destruct Fd as (Y & P). apply andb_true_iff in P. destruct P as (P & Q). apply Nat.eqb_eq in P. assert (St : c_stat y = SIdle) by (destruct (c_stat y); congruence). destruct (c_owner y) as [o|] eqn:Ow.
  - eapply drop_ok; [|flat; exact E|exact EX]. apply inv_emit; auto. pose proof (inv_without _ y o I Y Ow St) as X. rewrite P in X. exact X.
  - eexists. split; [reflexivity|]. apply inv_emit; auto. pose proof (inv_without_other _ y I Y Ow) as X. rewrite P in X. exact X.
Qed.
Lemma exit_ok s t th n : Inv None s -> nth_error (s_threads s) t = Some th -> t_stack th = [FExit n] -> exists s', exit_step s t th n = Ok s' /\ Inv None s'.
Proof.
  intros I E K. destruct (i_shape _ _ I _ _ E) as (S1 & S2). assert (EX : exists_thread th = true) by (apply S2; congruence).
  assert (End : exists s', Ok (emit (on_thread (pop s t) t (fun th => with_ctx (with_life th Dead) 0)) (EDead t)) = Ok s' /\ Inv None s').
  { eexists. split; [reflexivity|]. apply inv_emit; auto. assert (J : Inv None (pop s t)) by (eapply inv_pop; eauto; exact Logic.I). rewrite (pop_eq _ _ _ _ _ E K) in *. set (s1 := set_threads _ _) in *. assert (E1 : nth_error (s_threads s1) t = Some (with_stack th [])) by apply (upd_same _ _ _ E).
    rewrite (on_thread_eq _ _ _ _ E1). eapply inv_thread; eauto; cbn; try (intros; contradiction); [|exact Logic.I]. apply (i_zero _ _ I). }
  unfold exit_step. destruct (t_slot th) as [p|] eqn:Sl; [|exact End]. destruct n as [|n]; [exact End|].
  rewrite (on_thread_eq _ _ _ _ E). pose proof (upd_same _ _ _ E (with_slot th None)) as Eq. rewrite (swap_eq (set_threads s (upd (s_threads s) t (with_slot th None))) t (with_slot th None) (FExit (S n)) [] (FExit n)); [|exact Eq|exact K]. flat. rewrite upd_twice.
  eapply drop_ok; [|flat; apply (upd_same _ _ _ E)|exact EX]. set (th' := with_stack _ _).
  assert (J : Inv (Some p) (set_threads s (upd (s_threads s) t th'))).
  { eapply inv_thread; eauto; unfold th'; cbn [t_slot t_stack t_ctx with_stack with_slot].
    - intros r. rewrite Sl. cbn. lia.
    - rewrite K. reflexivity.
    - rewrite K. reflexivity.
    - intros f' r [<-|[]] Fc. discriminate.
    - intros f' r c id [<-|[]] Fc. discriminate.
    - apply (i_ctx _ _ I _ _ E).
    - reflexivity. }
  exact J.
Qed.

Lemma inv_owned x x' s e : Inv x s -> (forall p, owned p (e :: s_trace s) + hold p x' = owned p (s_trace s) + hold p x) -> (forall p, 0 <= owned p (e :: s_trace s)) -> Inv x' (emit s e).
Proof.
  intros I H P. constructor; try apply I; [|exact P]. intros p. flat. specialize (H p). specialize (P p). unfold slots, nsrcs, finals. flat. fold (slots p s) (nsrcs p s) (finals p s). pose proof (i_refs _ _ I p) as X. pose proof (hold_nonneg p x'). pose proof (hold_nonneg p x).
  destruct (nth_error (s_pools s) p) as [[q|]|]; [destruct X; split; auto; lia|..]; lia.
Qed.
Lemma call_ok s t th c : Inv None s -> fair s (t, ACall c) -> nth_error (s_threads s) t = Some th -> exists_thread th = true -> exists s', do_call s t th c = Ok s' /\ Inv None s'.
Proof.
  intros I F E EX. unfold do_call. destruct (get_default s t th) as (s1 & p) eqn:D. destruct (default_ok _ _ _ _ _ I E D) as (J & E1 & Cx & Sr & q & Q & Pq). destruct c as [|d| | |r].
  - eexists. split; [reflexivity|exact J].
  - unfold add. rewrite D. set (s2 := emit _ _). assert (J2 : Inv None s2) by (apply inv_emit; auto; apply inv_items; auto). assert (Q2 : nth_error (s_pools s2) p = Some (Some q)) by exact Q. rewrite (pool_at _ _ _ Q2). cbn [bind]. destruct (Nat.eqb (p_idle q) 0).
    + assert (Op : is_open s2 (t_ctx th) = true). { pose proof (i_ctx _ _ J2 t _ E1) as X. exact X. } destruct (open_next _ _ Op) as (id & N). unfold attach. rewrite N. cbn [bind]. eexists. split; [reflexivity|].
      refine (inv_source s2 (t_ctx th) id (Some p) _ J2 N _). exists q. eexists. split; [exact Q2|]. split; [exact Pq|]. split; [|reflexivity]. reflexivity.
    + eexists. split; [reflexivity|]. eapply inv_pool; eauto.
  - eexists. split; [reflexivity|]. eapply inv_push with (th := with_slot th (Some p)); [apply inv_emit; auto|exact E1|exact EX|discriminate|reflexivity].
  - rewrite (pool_at _ _ _ Q). cbn [bind]. eexists. split; [reflexivity|]. constructor; try apply J.
    + intros r. unfold slots, nsrcs, finals. flat. fold (slots r s1) (nsrcs r s1) (finals r s1). cbn [owned]. pose proof (i_refs _ _ J r) as X. destruct (Nat.eq_dec p r) as [<-|Ne].
      * rewrite (upd_same _ _ _ Q), Nat.eqb_refl. rewrite Q in X. cbn [p_refs]. destruct X as (X1 & X2). split; [lia|]. destruct (Z.eqb_spec (p_refs q) 0), (Z.eqb_spec (p_refs q + 1) 0); lia.
      * rewrite upd_other by auto. destruct (Nat.eqb_spec p r); [contradiction|]. exact X.
    + intros r. flat. cbn [owned]. pose proof (i_own _ _ J r). destruct (Nat.eqb p r); lia.
  - eapply drop_ok; [|flat; exact E|exact EX]. apply (inv_owned None); auto; intros r0; cbn [owned hold]; [destruct (Nat.eqb r r0); lia|]. pose proof (i_own _ _ I r0). cbn in F. destruct (Nat.eqb_spec r r0); [subst; lia|lia].
Qed.
Lemma client_ok s t th a : Inv None s -> fair s (t, a) -> nth_error (s_threads s) t = Some th -> exists_thread th = true -> exists s', client s t th a = Ok s' /\ Inv None s'.
Proof.
  intros I F E EX. assert (Same : exists s', Ok s = Ok s' /\ Inv None s') by eauto. destruct a as [| |c| |c id|c|c|c|b n]; cbn [client]; auto.
  - eapply call_ok; eauto.
  - destruct (is_open s c) eqn:Op; auto. unfold dispatch. destruct (find _ (s_srcs s)) as [y|] eqn:Fd; auto. apply found1 in Fd. destruct Fd as (Y & P). unfold pair_of in P. injection P as <- <-. destruct (c_owner y) as [p|] eqn:Ow.
    + destruct (c_stat y) eqn:St; auto. destruct (src_live _ _ _ _ I Y Ow) as (q & Q & _). set (s1 := emit _ _). assert (Q1 : nth_error (s_pools s1) p = Some (Some q)) by exact Q. rewrite (pool_at _ _ _ Q1). cbn [bind]. eexists. split; [reflexivity|]. match goal with |- context [push _ _ ?g] => set (f := g) end.
      assert (Fc : fcaller f = Some (p, WIdle (c_ctx y) (c_id y))) by (unfold f; destruct (Nat.eqb _ _); reflexivity). assert (NE : forall n, f <> FExit n) by (intros n; unfold f; destruct (Nat.eqb _ _); discriminate).
      rewrite (push_eq _ _ th) by exact E. pose proof (inv_dispatch _ _ _ _ _ _ I E EX Y Ow St Fc NE Op) as X. apply (inv_emit _ _ (EIdle t (c_ctx y) (c_id y) p)) in X; [|reflexivity].
      eapply inv_pool in X; [exact X|exact Q|reflexivity].
    + eexists. split; [reflexivity|]. apply inv_emit; auto.
  - destruct (is_open s c) eqn:Op; auto. eexists. split; [reflexivity|]. rewrite (on_thread_eq _ _ _ _ E). destruct (i_shape _ _ I _ _ E) as (S1 & S2). eapply inv_thread; eauto; cbn; auto.
    + intros f p Fi Fc. eapply i_slot; eauto.
  - destruct (is_open s c) eqn:Op; auto. destruct (open_next _ _ Op) as (id & N). unfold attach. rewrite N. cbn [bind]. eexists. split; [reflexivity|]. exact (inv_source s c id None _ I N eq_refl).
  - eexists. split; [reflexivity|]. destruct (unused s c) eqn:U; auto. eapply inv_push with (th := th); [apply inv_close; auto|exact E|exact EX|discriminate|exact Logic.I].
Qed.
Theorem step_ok s x : Inv None s -> fair s x -> exists s', step s x = Ok s' /\ Inv None s'.
Proof.
  intros I F. destruct x as (t & a). unfold step. assert (Same : exists s', Ok s = Ok s' /\ Inv None s') by eauto. destruct (nth_error (s_threads s) t) as [th|] eqn:E; auto. destruct (i_shape _ _ I _ _ E) as (S1 & S2). destruct (t_stack th) as [|f k] eqn:K.
  - destruct (t_life th) eqn:L; auto.
    + destruct a; auto. destruct (existsb _ (s_threads s)); auto. eexists. split; [reflexivity|]. apply inv_emit; auto. rewrite (on_thread_eq _ _ _ _ E). eapply inv_thread; eauto; cbn; rewrite ?K; auto; try contradiction. apply (i_ctx _ _ I _ _ E).
    + assert (EX : exists_thread th = true) by (unfold exists_thread; rewrite L; auto). destruct a as [| |c| |c id|c|c|c|b n]; try (eapply client_ok; eauto; fail). eexists. split; [reflexivity|]. apply inv_emit; auto. rewrite (on_thread_eq _ _ _ _ E). pose proof (upd_same _ _ _ E (with_ctx (with_life th Exiting) (if b then 0 else t_ctx th)%nat)) as Eq.
      rewrite (push_eq _ _ (with_ctx (with_life th Exiting) (if b then 0 else t_ctx th)%nat)) by exact Eq. flat. rewrite upd_twice. eapply (inv_thread None None s t th); eauto; cbn; rewrite ?K; cbn; auto.
      * intros f p [<-|[]] Fc. discriminate.
      * intros f p c id [<-|[]] Fc. discriminate.
      * destruct b; [apply (i_zero _ _ I)|apply (i_ctx _ _ I _ _ E)].
  - assert (EX : exists_thread th = true) by (apply S2; congruence). destruct f as [p w|p l w|p l w|p id w|p w|p c id|n|c].
    + destruct a; auto. eapply loop_ok; eauto.
    + destruct a; auto. unfold batch. destruct l as [|(i & d) l]; eexists; (split; [reflexivity|]); eapply inv_swap with (th := th); try exact E; try exact K; auto; try discriminate. apply inv_emit; auto.
    + destruct a as [| |c| |c id|c|c|c|b n]; try (eapply client_ok; eauto; fail). eexists. split; [reflexivity|]. eapply inv_swap with (th := th); [apply inv_emit; auto|exact E|exact K|reflexivity|discriminate].
    + destruct a; auto. eapply remove_ok; eauto.
    + destruct a; auto. eapply drain_end_ok; eauto.
    + destruct a; auto. unfold idle_end. rewrite (pop_eq _ _ _ _ _ E K). eapply drop_ok; [|flat; apply (upd_same _ _ _ E)|exact EX]. apply inv_emit; [|reflexivity]. exact (inv_idle_end _ _ _ _ _ _ _ _ I E K eq_refl).
    + destruct a; auto. cbn in S1. subst k. eapply exit_ok; eauto.
    + destruct a; auto. eapply close_ok; eauto.
Qed.
Lemma start_inv selfs n : Inv None (start selfs n).
Proof.
  assert (Th : forall th, In th (s_threads (start selfs n)) -> t_stack th = [] /\ t_slot th = None /\ t_ctx th = 0%nat). { intros th H. cbn in H. apply in_map_iff in H. destruct H as (a & <- & _). auto. }
  assert (Z1 : forall p, slots p (start selfs n) = 0). { intros p. apply sumz_zero. intros th H. destruct (Th th H) as (_ & -> & _). auto. }
  assert (Z2 : forall p, finals p (start selfs n) = 0). { intros p. apply sumz_zero. intros th H. destruct (Th th H) as (-> & _). auto. }
  assert (Z3 : forall c id, runs c id (start selfs n) = 0). { intros c id. apply sumz_zero. intros th H. destruct (Th th H) as (-> & _). auto. }
  constructor; try (cbn; auto; tauto).
  - intros p. rewrite Z1, Z2. cbn [start s_pools s_trace]. rewrite (proj2 (nth_error_None _ _)) by (cbn; lia). repeat split; auto.
  - intros p. cbn. lia.
  - intros t th f p E Fi. apply nth_error_In in E. destruct (Th th E) as (K & _). rewrite K in Fi. destruct Fi.
  - intros t th f p c id E Fi. apply nth_error_In in E. destruct (Th th E) as (K & _). rewrite K in Fi. destruct Fi.
  - intros c id. rewrite Z3. lia.
  - constructor.
  - intros t th E. apply nth_error_In in E. destruct (Th th E) as (_ & _ & ->). reflexivity.
  - intros c m E. cbn [start s_ctxs] in E. apply nth_error_In, repeat_spec in E. injection E as ->. lia.
  - intros t th E. apply nth_error_In in E. destruct (Th th E) as (-> & _). split; [exact Logic.I|congruence].
Qed.
Lemma run_ok l : forall s, Inv None s -> all_along fair s l -> exists s', run s l = Ok s' /\ Inv None s'.
Proof.
  induction l as [|a l IH]; intros s I F; cbn [run]; [eauto|]. destruct F as (F & Fl). destruct (step_ok s a I F) as (s1 & E & I1). rewrite E in *. cbn [bind]. auto.
Qed.
Lemma run_inv l s s' : Inv None s -> all_along fair s l -> run s l = Ok s' -> Inv None s'.
Proof. intros I F R. destruct (run_ok l s I F) as (s1 & R1 & I1). congruence. Qed.
