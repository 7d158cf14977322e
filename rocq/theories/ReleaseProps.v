(* Removing identifiers when destroy notifications of the client run inside (C97). *)
From Verif Require Import Base ReleaseModel ReleaseSpec.
Open Scope nat_scope.

Lemma mem_ok x l : mem x l = true <-> In x l.
Proof.
  unfold mem. rewrite existsb_exists. split.
  - intros (y & H & E). apply Nat.eqb_eq in E. subst. exact H.
  - intros H. exists x. split; [exact H|apply Nat.eqb_refl].
Qed.
Lemma in_drop x y l : In y (drop x l) <-> In y l /\ y <> x.
Proof.
  unfold drop. rewrite filter_In. split.
  - intros (H & E). split; [exact H|]. intros ->. rewrite Nat.eqb_refl in E. discriminate.
  - intros (H & E). split; [exact H|]. destruct (Nat.eqb_spec x y); [congruence|reflexivity].
Qed.

(* What one step of a function or of the client does *)
Inductive effect (s : state) (a : action) (s' : state) : Prop :=
| EfSame : s_cells s' = s_cells s -> s_alive s' = s_alive s -> s_next s' = s_next s -> s_trace s' = s_trace s ->
    (s_stack s' = s_stack s \/ (exists k m, a = ACall k m /\ running s /\ s_stack s' = FLoop k (k + m) :: s_stack s) \/
     (exists i e st, s_stack s = FLoop i e :: st /\ e <= i /\ s_stack s' = st) \/
     (exists i e st c, s_stack s = FLoop i e :: st /\ i < e /\ s_cells s = Some c /\ nth_error c i = Some 0 /\ s_stack s' = FLoop (S i) e :: st)) ->
    effect s a s'
| EfStore k c : a = AStore k -> running s -> s_cells s = Some c -> k < length c -> s_cells s' = Some (upd c k (s_next s)) -> s_alive s' = s_next s :: s_alive s ->
    s_next s' = S (s_next s) -> s_trace s' = EStore k (s_next s) :: s_trace s -> s_stack s' = s_stack s -> effect s a s'
| EfFree c : a = AFree -> running s -> s_cells s = Some c -> s_cells s' = None -> s_alive s' = s_alive s -> s_next s' = s_next s ->
    s_trace s' = EFree :: s_trace s -> s_stack s' = s_stack s -> effect s a s'
| EfNotify i e st c x : s_stack s = FLoop i e :: st -> i < e -> s_cells s = Some c -> nth_error c i = Some x -> x <> 0 -> In x (s_alive s) ->
    s_cells s' = s_cells s -> s_alive s' = drop x (s_alive s) -> s_next s' = s_next s -> s_trace s' = ERelease x :: s_trace s ->
    s_stack s' = FNotify i e :: st -> effect s a s'
| EfRemove i e st c x : s_stack s = FLoop i e :: st -> i < e -> s_cells s = Some c -> nth_error c i = Some x -> x <> 0 -> In x (s_alive s) ->
    s_cells s' = Some (upd c i 0) -> s_alive s' = drop x (s_alive s) -> s_next s' = s_next s -> s_trace s' = ERelease x :: s_trace s ->
    s_stack s' = FLoop (S i) e :: st -> effect s a s'
| EfBad i e st c x : s_stack s = FLoop i e :: st -> i < e -> s_cells s = Some c -> nth_error c i = Some x -> x <> 0 -> ~ In x (s_alive s) ->
    s_cells s' = Some (upd c i 0) -> s_alive s' = s_alive s -> s_next s' = s_next s -> s_trace s' = EBad x :: s_trace s ->
    s_stack s' = FLoop (S i) e :: st -> effect s a s'
| EfReturn i e st c : s_stack s = FNotify i e :: st -> s_cells s = Some c -> i < length c ->
    s_cells s' = Some (upd c i 0) -> s_alive s' = s_alive s -> s_next s' = s_next s -> s_trace s' = s_trace s ->
    s_stack s' = FLoop (S i) e :: st -> effect s a s'.

Lemma client_effect s a s' : running s -> client s a = Ok s' -> effect s a s'.
Proof.
  intros R H. destruct a as [k m|k| |b|]; cbn [client] in H.
  - injection H as <-. apply EfSame; try reflexivity. right; left. exists k, m. split; [reflexivity|]. split; [exact R|reflexivity].
  - destruct (s_cells s) as [c|] eqn:C; [|discriminate]. destruct (Nat.ltb_spec k (length c)); [|discriminate]. injection H as <-.
    refine (EfStore _ _ _ k c eq_refl R C H0 _ _ _ _ _); reflexivity.
  - destruct (s_cells s) as [c|] eqn:C; [|discriminate]. injection H as <-. refine (EfFree _ _ _ c eq_refl R C _ _ _ _ _); reflexivity.
  - injection H as <-. apply EfSame; try reflexivity. left; reflexivity.
  - destruct (s_stack s) as [|[i e|i e] st] eqn:T.
    1,2: injection H as <-; apply EfSame; try reflexivity; left; reflexivity.
    unfold clear in H. destruct (s_cells s) as [c|] eqn:C; [|discriminate]. destruct (Nat.ltb_spec i (length c)); [|discriminate].
    injection H as <-. refine (EfReturn _ _ _ i e st c T C H0 _ _ _ _ _); reflexivity.
Qed.
Lemma step_effect s a s' : step s a = Ok s' -> effect s a s'.
Proof.
  unfold step. destruct (s_stack s) as [|[i e|i e] st] eqn:T.
  - apply client_effect. unfold running. rewrite T. exact Logic.I.
  - destruct a as [k m|k| |b|]; intros H.
    1,2,3,5: injection H as <-; apply EfSame; try reflexivity; left; reflexivity.
    unfold loop in H. destruct (Nat.ltb_spec i e) as [L|L].
    + destruct (s_cells s) as [c|] eqn:C; [|discriminate]. destruct (nth_error c i) as [x|] eqn:X; [|discriminate].
      destruct x as [|x].
      * injection H as <-. apply EfSame; try reflexivity; [exact (eq_sym C)|]. right; right; right. exists i, e, st, c. repeat split; assumption.
      * destruct (mem (S x) (s_alive s)) eqn:M.
        -- apply mem_ok in M. destruct b.
           ++ injection H as <-. refine (EfNotify _ _ _ i e st c (S x) T L C X (Nat.neq_succ_0 x) M _ _ _ _ _); first [reflexivity|exact (eq_sym C)].
           ++ unfold clear in H. cbn [s_cells] in H. destruct (Nat.ltb_spec i (length c)); [|discriminate].
              injection H as <-. refine (EfRemove _ _ _ i e st c (S x) T L C X (Nat.neq_succ_0 x) M _ _ _ _ _); reflexivity.
        -- assert (N : ~ In (S x) (s_alive s)) by (intros Q; apply mem_ok in Q; congruence).
           unfold clear in H. cbn [s_cells] in H. destruct (Nat.ltb_spec i (length c)); [|discriminate].
           injection H as <-. refine (EfBad _ _ _ i e st c (S x) T L C X (Nat.neq_succ_0 x) N _ _ _ _ _); reflexivity.
    + injection H as <-. apply EfSame; try reflexivity. right; right; left. exists i, e, st. repeat split; assumption.
  - apply client_effect. unfold running. rewrite T. exact Logic.I.
Qed.

(* Holds of every client *)
Record good (s : state) : Prop := {
  g_alive : forall id, In id (s_alive s) <-> stored (s_trace s) id /\ releases id (s_trace s) = 0;
  g_once : forall id, releases id (s_trace s) <= 1;
  g_known : forall id, releases id (s_trace s) <> 0 -> stored (s_trace s) id;
  g_range : forall id, stored (s_trace s) id -> 1 <= id < s_next s;
  g_next : 1 <= s_next s;
  g_cells : forall c i x, s_cells s = Some c -> nth_error c i = Some x -> x <> 0 -> In (EStore i x) (s_trace s);
  g_place : forall k k' id, In (EStore k id) (s_trace s) -> In (EStore k' id) (s_trace s) -> k = k' }.

Lemma stored_cons e tr id : stored tr id -> stored (e :: tr) id.
Proof. intros (k & H). exists k. right. exact H. Qed.
Lemma stored_inv e tr id : stored (e :: tr) id -> stored tr id \/ exists k, e = EStore k id.
Proof. intros (k & [H|H]); [right; exists k; exact H|left; exists k; exact H]. Qed.

Lemma nth_upd {A} (c : list A) i j x y : nth_error (upd c i x) j = Some y -> (i = j /\ y = x) \/ (i <> j /\ nth_error c j = Some y).
Proof.
  intros H. destruct (Nat.eq_dec i j) as [->|N].
  - left. split; [reflexivity|]. assert (L : j < length c).
    { rewrite <- (upd_length c j x). apply nth_error_Some. congruence. }
    rewrite nth_error_upd_eq in H by exact L. congruence.
  - right. rewrite nth_error_upd_ne in H by exact N. split; assumption.
Qed.

Lemma good_start n : good (start n).
Proof.
  constructor; cbn.
  - intros id. split; [intros []|]. intros ((k & []) & _).
  - lia.
  - intros id H. congruence.
  - intros id (k & []).
  - lia.
  - intros c i x H X N. injection H as <-. exfalso. apply N. apply nth_error_In in X. apply repeat_spec in X. exact X.
  - intros k k' id [].
Qed.

Lemma good_quiet s s' : s_alive s' = s_alive s -> s_next s' = s_next s ->
  (forall k id, In (EStore k id) (s_trace s') <-> In (EStore k id) (s_trace s)) -> (forall id, releases id (s_trace s') = releases id (s_trace s)) ->
  (forall c i x, s_cells s' = Some c -> nth_error c i = Some x -> x <> 0 -> In (EStore i x) (s_trace s)) -> good s -> good s'.
Proof.
  intros A N SI R C [G1 G2 G3 G4 G5 G6 G7].
  assert (ST : forall id, stored (s_trace s') id <-> stored (s_trace s) id) by (intros id; unfold stored; split; intros (k & H); exists k; apply SI; exact H).
  constructor.
  - intros id. rewrite A, ST, R. apply G1.
  - intros id. rewrite R. apply G2.
  - intros id. rewrite ST, R. apply G3.
  - intros id. rewrite ST, N. apply G4.
  - rewrite N. exact G5.
  - intros c i x H X Y. rewrite SI. exact (C c i x H X Y).
  - intros k k' id. rewrite !SI. apply G7.
Qed.
Lemma good_release s s' x : In x (s_alive s) -> s_alive s' = drop x (s_alive s) -> s_next s' = s_next s -> s_trace s' = ERelease x :: s_trace s ->
  (forall c i x, s_cells s' = Some c -> nth_error c i = Some x -> x <> 0 -> In (EStore i x) (s_trace s)) -> good s -> good s'.
Proof.
  intros IN A N T C [G1 G2 G3 G4 G5 G6 G7].
  assert (Q : stored (s_trace s) x /\ releases x (s_trace s) = 0) by (apply G1; exact IN). destruct Q as (Q1 & Q2).
  assert (SI : forall id, stored (s_trace s') id <-> stored (s_trace s) id).
  { intros id. rewrite T. split; [|apply stored_cons]. intros H. apply stored_inv in H. destruct H as [H|(k & H)]; [exact H|discriminate]. }
  assert (R : forall id, releases id (s_trace s') = (if Nat.eqb x id then 1 else 0) + releases id (s_trace s)) by (intros id; rewrite T; reflexivity).
  constructor.
  - intros id. rewrite A, in_drop, SI, R, G1. destruct (Nat.eqb_spec x id) as [->|NE].
    + split; [intros (_ & H); congruence|]. intros (_ & H). lia.
    + split; [intros ((P1 & P2) & _); split; [exact P1|exact P2]|]. intros (P1 & P2). repeat split; [exact P1|exact P2|congruence].
  - intros id. rewrite R. destruct (Nat.eqb_spec x id) as [->|NE]; [lia|]. exact (G2 id).
  - intros id. rewrite R, SI. destruct (Nat.eqb_spec x id) as [->|NE]; [intros _; exact Q1|exact (G3 id)].
  - intros id. rewrite SI, N. apply G4.
  - rewrite N. exact G5.
  - intros c i y H X Y. rewrite T. right. exact (C c i y H X Y).
  - intros k k' id. rewrite T. cbn [In]. intros [H|H]; [discriminate|]. intros [K|K]; [discriminate|]. exact (G7 k k' id H K).
Qed.

Lemma good_upd0 s c i : good s -> s_cells s = Some c ->
  forall c' j x, Some (upd c i 0) = Some c' -> nth_error c' j = Some x -> x <> 0 -> In (EStore j x) (s_trace s).
Proof.
  intros G C c' j x E X N. injection E as <-. apply nth_upd in X. destruct X as [(_ & X)|(_ & X)]; [congruence|].
  exact (g_cells _ G c j x C X N).
Qed.

Lemma good_step s a s' : good s -> step s a = Ok s' -> good s'.
Proof.
  intros G H. apply step_effect in H.
  destruct H as [C A N T _|k c _ R C L C' A N T _|c _ R C C' A N T _|i e st c x _ _ C X NX IN C' A N T _
                |i e st c x _ _ C X NX IN C' A N T _|i e st c x _ _ C X NX IN C' A N T _|i e st c _ C L C' A N T _].
  - apply (good_quiet s); try assumption.
    + intros k id. rewrite T. tauto.
    + intros id. rewrite T. reflexivity.
    + rewrite C. exact (g_cells _ G).
  - destruct G as [G1 G2 G3 G4 G5 G6 G7].
    assert (F : ~ stored (s_trace s) (s_next s)) by (intros Q; apply G4 in Q; lia).
    assert (SI : forall id, stored (s_trace s') id <-> stored (s_trace s) id \/ id = s_next s).
    { intros id. rewrite T. split.
      - intros Q. apply stored_inv in Q. destruct Q as [Q|(k' & Q)]; [left; exact Q|]. right. congruence.
      - intros [Q| ->]; [apply stored_cons; exact Q|]. exists k. left. reflexivity. }
    assert (RI : forall id, releases id (s_trace s') = releases id (s_trace s)) by (intros id; rewrite T; reflexivity).
    assert (R0 : releases (s_next s) (s_trace s) = 0).
    { destruct (releases (s_next s) (s_trace s)) eqn:Q; [reflexivity|]. exfalso. apply F, G3. congruence. }
    constructor.
    + intros id. rewrite A, SI, RI. cbn [In]. rewrite G1. split.
      * intros [<-|(P1 & P2)]; [split; [right; reflexivity|exact R0]|]. split; [left; exact P1|exact P2].
      * intros ([P1| ->] & P2); [right; split; assumption|left; reflexivity].
    + intros id. rewrite RI. apply G2.
    + intros id. rewrite RI, SI. intros Q. left. apply G3. exact Q.
    + intros id. rewrite SI, N. intros [Q| ->]; [apply G4 in Q; lia|lia].
    + lia.
    + intros c' i x Q X NX. rewrite C' in Q. injection Q as <-. rewrite T. apply nth_upd in X.
      destruct X as [(-> & ->)|(_ & X)]; [left; reflexivity|]. right. exact (G6 c i x C X NX).
    + intros k1 k2 id. rewrite T. cbn [In]. intros [H|H] [K|K].
      * congruence.
      * injection H as <- <-. elim F. exists k2. exact K.
      * injection K as <- <-. elim F. exists k1. exact H.
      * exact (G7 k1 k2 id H K).
  - apply (good_quiet s); try assumption.
    + intros k id. rewrite T. cbn [In]. split; [intros [Q|Q]; [discriminate|exact Q]|intros Q; right; exact Q].
    + intros id. rewrite T. reflexivity.
    + intros c' i x Q. congruence.
  - apply (good_release s s' x); try assumption. rewrite C'. exact (g_cells _ G).
  - apply (good_release s s' x); try assumption. rewrite C'. exact (good_upd0 s c i G C).
  - apply (good_quiet s); try assumption.
    + intros k id. rewrite T. cbn [In]. split; [intros [Q|Q]; [discriminate|exact Q]|intros Q; right; exact Q].
    + intros id. rewrite T. reflexivity.
    + rewrite C'. exact (good_upd0 s c i G C).
  - apply (good_quiet s); try assumption.
    + intros k id. rewrite T. tauto.
    + intros id. rewrite T. reflexivity.
    + rewrite C'. exact (good_upd0 s c i G C).
Qed.
Lemma good_run l : forall s s', good s -> run s l = Ok s' -> good s'.
Proof.
  induction l as [|a l IH]; intros s s' G H; cbn [run] in H.
  - injection H as <-. exact G.
  - destruct (step s a) as [t|f] eqn:T; cbn [bind] in H; [|discriminate]. exact (IH t s' (good_step s a t G T) H).
Qed.

(* An identifier is removed at most once, and only if it has been stored; GLib is asked again only for what was removed already *)
Theorem C97_once : forall n l s id, run (start n) l = Ok s ->
  releases id (s_trace s) <= 1 /\ (releases id (s_trace s) = 1 -> stored (s_trace s) id) /\
  (In id (s_alive s) <-> stored (s_trace s) id /\ releases id (s_trace s) = 0).
Proof.
  intros n l s id H. pose proof (good_run l _ _ (good_start n) H) as G.
  split; [exact (g_once _ G id)|]. split; [|exact (g_alive _ G id)]. intros Q. apply (g_known _ G). lia.
Qed.
Print Assumptions C97_once.

(* Holds of careful clients: calls in progress are inside of the array *)
Definition top (f : frame) : nat * nat := match f with FLoop i e => (i, e) | FNotify i e => (i, e) end.
Definition fits (n : nat) (f : frame) : Prop := match f with FLoop i e => i <= n /\ e <= n | FNotify i e => i < e /\ e <= n end.
Definition fine (s : state) : Prop := match s_cells s with None => s_stack s = [] | Some c => Forall (fits (length c)) (s_stack s) end.

Lemma fine_step s a s' : fine s -> careful s a -> step s a = Ok s' -> fine s'.
Proof.
  unfold fine, careful. intros F CA H. apply step_effect in H.
  destruct H as [C A N T ST|k c AC R C L C' A N T ST|c AC R C C' A N T ST|i e st c x ST L C X NX IN C' A N T ST'
                |i e st c x ST L C X NX IN C' A N T ST'|i e st c x ST L C X NX IN C' A N T ST'|i e st c ST C L C' A N T ST'].
  - rewrite C. destruct ST as [ST|[(k & m & AC & R & ST)|[(i & e & st & ST & L & ST')|(i & e & st & c & ST & L & C1 & X & ST')]]].
    + rewrite ST. exact F.
    + subst a. specialize (CA R). destruct CA as (c & C1 & L). rewrite C1 in *. rewrite ST. constructor; [|exact F]. cbn. lia.
    + rewrite ST in F. rewrite ST'. destruct (s_cells s) as [c|]; [|discriminate]. inversion F; assumption.
    + rewrite C1 in *. rewrite ST in F. rewrite ST'. inversion F as [|? ? F1 F2]; subst. constructor; [|exact F2]. cbn in *. lia.
  - rewrite C in F. rewrite C', ST, upd_length. exact F.
  - rewrite C', ST. subst a. exact (proj2 (CA R)).
  - rewrite C', C in *. rewrite ST in F. rewrite ST'. inversion F as [|? ? F1 F2]; subst. constructor; [|exact F2]. cbn in *. lia.
  - rewrite C in F. rewrite C', ST', upd_length. rewrite ST in F. inversion F as [|? ? F1 F2]; subst. constructor; [|exact F2]. cbn in *. lia.
  - rewrite C in F. rewrite C', ST', upd_length. rewrite ST in F. inversion F as [|? ? F1 F2]; subst. constructor; [|exact F2]. cbn in *. lia.
  - rewrite C in F. rewrite C', ST', upd_length. rewrite ST in F. inversion F as [|? ? F1 F2]; subst. constructor; [|exact F2]. cbn in *. lia.
Qed.

Lemma clear_ok s i e st c : s_cells s = Some c -> i < length c -> exists s', clear s i e st = Ok s'.
Proof. intros C L. unfold clear. rewrite C. apply Nat.ltb_lt in L. rewrite L. eexists; reflexivity. Qed.

Lemma fine_ok s a : fine s -> careful s a -> exists s', step s a = Ok s'.
Proof.
  unfold fine, careful, step. intros F CA. destruct (s_stack s) as [|[i e|i e] st] eqn:T.
  - assert (R : running s) by (unfold running; rewrite T; exact Logic.I). specialize (CA R).
    destruct a as [k m|k| |b|]; cbn [client].
    + eexists; reflexivity.
    + destruct CA as (c & C & X). rewrite C. assert (L : k < length c) by (apply nth_error_Some; congruence).
      apply Nat.ltb_lt in L. rewrite L. eexists; reflexivity.
    + destruct (s_cells s); [eexists; reflexivity|]. destruct CA as (CA & _). congruence.
    + eexists; reflexivity.
    + rewrite T. eexists; reflexivity.
  - destruct a as [k m|k| |b|]; try (eexists; reflexivity).
    unfold loop. destruct (Nat.ltb_spec i e) as [L|L]; [|eexists; reflexivity].
    destruct (s_cells s) as [c|] eqn:C; [|discriminate]. inversion F as [|? ? F1 F2]; subst. cbn in F1.
    destruct (nth_error c i) as [x|] eqn:X; [|apply nth_error_None in X; lia].
    destruct x as [|x]; [eexists; reflexivity|].
    destruct (mem (S x) (s_alive s)); [destruct b; [eexists; reflexivity|]|]; apply (clear_ok _ _ _ _ c); try reflexivity; lia.
  - assert (R : running s) by (unfold running; rewrite T; exact Logic.I). specialize (CA R).
    destruct (s_cells s) as [c|] eqn:C; [|discriminate]. inversion F as [|? ? F1 F2]; subst. cbn in F1.
    destruct a as [k m|k| |b|]; cbn [client].
    + eexists; reflexivity.
    + destruct CA as (c' & C1 & X). rewrite C. injection C1 as <-. assert (L : k < length c) by (apply nth_error_Some; congruence).
      apply Nat.ltb_lt in L. rewrite L. eexists; reflexivity.
    + rewrite C. eexists; reflexivity.
    + eexists; reflexivity.
    + rewrite T. apply (clear_ok _ _ _ _ c); [exact C|lia].
Qed.

Lemma fine_start n : fine (start n).
Proof. unfold fine. cbn. constructor. Qed.
Lemma fine_run l : forall s, fine s -> along careful s l -> exists s', run s l = Ok s' /\ fine s'.
Proof.
  induction l as [|a l IH]; intros s F AL; cbn [run along] in *.
  - exists s. split; [reflexivity|exact F].
  - destruct AL as (CA & AL). destruct (fine_ok s a F CA) as (t & T). rewrite T in *. cbn [bind]. exact (IH t (fine_step s a t F CA T) AL).
Qed.

(* With a careful client (which frees the array only when no call is in progress) nothing goes wrong with memory *)
Theorem C97_memory_partial : forall n l, along careful (start n) l -> exists s, run (start n) l = Ok s.
Proof. intros n l AL. destruct (fine_run l _ (fine_start n) AL) as (s & H & _). exists s. exact H. Qed.
Print Assumptions C97_memory_partial.

(* Holds of careful clients which do not ask for what is being removed already *)
Fixpoint disjoint (st : list frame) : Prop :=
  match st with [] => True | f :: rest => (forall j e, In (FNotify j e) rest -> j < fst (top f) \/ snd (top f) <= j) /\ disjoint rest end.
Record tidy (s : state) : Prop := {
  t_disjoint : disjoint (s_stack s);
  t_busy : forall c j e, s_cells s = Some c -> In (FNotify j e) (s_stack s) -> exists x, nth_error c j = Some x /\ x <> 0 /\ ~ In x (s_alive s);
  t_free : forall c j x, s_cells s = Some c -> nth_error c j = Some x -> x <> 0 -> In x (s_alive s) \/ busy s j;
  t_kept : forall c k id, s_cells s = Some c -> In (EStore k id) (s_trace s) -> In id (s_alive s) -> nth_error c k = Some id;
  t_nobad : forall id, ~ In (EBad id) (s_trace s) }.

Lemma tidy_start n : tidy (start n).
Proof.
  constructor; cbn.
  - exact Logic.I.
  - intros c j e _ [].
  - intros c j x H X N. injection H as <-. exfalso. apply N. apply nth_error_In in X. apply repeat_spec in X. exact X.
  - intros c k id _ [].
  - intros id [].
Qed.

Lemma busy_ne f j st : (forall e, f <> FNotify j e) -> (exists e, In (FNotify j e) (f :: st)) -> exists e, In (FNotify j e) st.
Proof. intros N (e & [H|H]); [elim (N e H)|exists e; exact H]. Qed.

(* The cells of calls below the top one are not touched when cell i of the top one is cleared *)
Lemma tidy_clear s s' f i e st c x : tidy s -> good s -> s_stack s = f :: st -> top f = (i, e) -> i < e -> s_cells s = Some c -> nth_error c i = Some x ->
  (forall y, In y (s_alive s') <-> In y (s_alive s) /\ y <> x) -> s_cells s' = Some (upd c i 0) -> s_stack s' = FLoop (S i) e :: st ->
  (forall k id, In (EStore k id) (s_trace s') -> In (EStore k id) (s_trace s)) -> (forall id, ~ In (EBad id) (s_trace s')) -> tidy s'.
Proof.
  intros [T1 T2 T3 T4 T5] G ST TF L C X AL C' ST' TR NB. rewrite ST in *. destruct T1 as (D1 & D2). rewrite TF in D1. cbn [fst snd] in D1.
  constructor.
  - rewrite ST'. split; [|exact D2]. intros j e' H. cbn [top fst snd]. destruct (D1 j e' H); [left; lia|right; assumption].
  - intros c' j e' Q H. rewrite C' in Q. injection Q as <-. rewrite ST' in H. destruct H as [H|H]; [discriminate|].
    destruct (T2 c j e' C (or_intror H)) as (y & Y1 & Y2 & Y3). exists y. split.
    + rewrite nth_error_upd_ne; [exact Y1|]. destruct (D1 j e' H); lia.
    + split; [exact Y2|]. intros Q. apply AL in Q. exact (Y3 (proj1 Q)).
  - intros c' j y Q Y NY. rewrite C' in Q. injection Q as <-. apply nth_upd in Y. destruct Y as [(_ & ->)|(NE & Y)]; [congruence|].
    destruct (T3 c j y C Y NY) as [IN|B].
    + destruct (Nat.eq_dec y x) as [->|NXY]; [|left; apply AL; split; assumption].
      exfalso. (* x would be in two cells *)
      exact (NE (g_place _ G i j x (g_cells _ G c i x C X NY) (g_cells _ G c j x C Y NY))).
    + right. unfold busy in *. rewrite ST in B. rewrite ST'. destruct B as (e' & B). exists e'. right. destruct B as [B|B]; [|exact B].
      rewrite B in TF. cbn in TF. injection TF as <- <-. congruence.
  - intros c' k id Q H IN. rewrite C' in Q. injection Q as <-. apply AL in IN. destruct IN as (IN & NE). apply TR in H.
    pose proof (T4 c k id C H IN) as K. rewrite nth_error_upd_ne; [exact K|]. intros ->. congruence.
  - exact NB.
Qed.

Lemma tidy_step s a s' : good s -> fine s -> tidy s -> careful s a -> apart s a -> step s a = Ok s' -> tidy s'.
Proof.
  intros G F TD CA AP H. unfold careful, apart in *. apply step_effect in H.
  destruct H as [C A N T ST|k c AC R C L C' A N T ST|c AC R C C' A N T ST|i e st c x ST L C X NX IN C' A N T ST'
                |i e st c x ST L C X NX IN C' A N T ST'|i e st c x ST L C X NX IN C' A N T ST'|i e st c ST C L C' A N T ST'].
  - (* nothing is removed *)
    assert (ST2 : disjoint (s_stack s') /\ forall j e, In (FNotify j e) (s_stack s') <-> In (FNotify j e) (s_stack s)).
    { destruct TD as [D _ _ _ _]. destruct ST as [ST|[(k & m & AC & R & ST)|[(i & e & st & ST & L & ST')|(i & e & st & c & ST & L & C1 & X & ST')]]].
      - rewrite ST. split; [exact D|tauto].
      - rewrite ST. subst a. specialize (AP R). split.
        + split; [|exact D]. intros j e H. cbn [top fst snd]. specialize (AP j (ex_intro _ e H)). lia.
        + intros j e. cbn [In]. split; [intros [Q|Q]; [discriminate|exact Q]|intros Q; right; exact Q].
      - rewrite ST in *. rewrite ST'. destruct D as (_ & D). split; [exact D|]. intros j e'. cbn [In].
        split; [intros Q; right; exact Q|intros [Q|Q]; [discriminate|exact Q]].
      - rewrite ST in *. rewrite ST'. destruct D as (D1 & D). split.
        + split; [|exact D]. intros j e' Q. specialize (D1 j e' Q). cbn [top fst snd] in *. lia.
        + intros j e'. cbn [In]. split; (intros [Q|Q]; [discriminate|right; exact Q]). }
    destruct ST2 as (D & B). destruct TD as [_ T2 T3 T4 T5]. constructor.
    + exact D.
    + intros c j e. rewrite C, B, A. apply T2.
    + intros c j x. rewrite C, A. intros Q X NX. destruct (T3 c j x Q X NX) as [Y|(e & Y)]; [left; exact Y|right; exists e; apply B; exact Y].
    + intros c k id. rewrite C, T, A. apply T4.
    + rewrite T. exact T5.
  - subst a. specialize (CA R). destruct CA as (c' & C1 & Z). rewrite C in C1. injection C1 as <-.
    destruct TD as [T1 T2 T3 T4 T5].
    assert (FR : forall j y, nth_error c j = Some y -> y <> s_next s).
    { intros j y Y ->. assert (NZ : s_next s <> 0) by (pose proof (g_next _ G); lia). pose proof (g_cells _ G c j _ C Y NZ) as Q.
      pose proof (g_range _ G (s_next s) (ex_intro _ j Q)). lia. }
    constructor.
    + rewrite ST. exact T1.
    + intros c' j e Q H. rewrite C' in Q. injection Q as <-. rewrite ST in H. destruct (T2 c j e C H) as (y & Y1 & Y2 & Y3).
      exists y. split.
      * rewrite nth_error_upd_ne; [exact Y1|]. intros ->. congruence.
      * split; [exact Y2|]. rewrite A. intros [Q|Q]; [|exact (Y3 Q)]. exact (FR j y Y1 (eq_sym Q)).
    + intros c' j y Q Y NY. rewrite C' in Q. injection Q as <-. rewrite A. apply nth_upd in Y. destruct Y as [(_ & ->)|(NE & Y)].
      * left. left. reflexivity.
      * destruct (T3 c j y C Y NY) as [Q|Q]; [left; right; exact Q|]. right. unfold busy in *. rewrite ST. exact Q.
    + intros c' k' id Q H IN. rewrite C' in Q. injection Q as <-. rewrite T in H. rewrite A in IN. destruct H as [H|H].
      * injection H as <- <-. apply nth_error_upd_eq. exact L.
      * destruct IN as [<-|IN].
        -- pose proof (g_range _ G (s_next s) (ex_intro _ k' H)). lia.
        -- pose proof (T4 c k' id C H IN) as K. rewrite nth_error_upd_ne; [exact K|]. intros ->. rewrite Z in K. injection K as <-.
           pose proof (g_range _ G 0 (ex_intro _ k' H)). lia.
    + rewrite T. intros id [Q|Q]; [discriminate|exact (T5 id Q)].
  - destruct TD as [T1 T2 T3 T4 T5]. constructor.
    + rewrite ST. exact T1.
    + intros c' j e Q. congruence.
    + intros c' j x Q. congruence.
    + intros c' k id Q. congruence.
    + rewrite T. intros id [Q|Q]; [discriminate|exact (T5 id Q)].
  - destruct TD as [T1 T2 T3 T4 T5]. rewrite ST in *. constructor.
    + rewrite ST'. exact T1.
    + intros c' j e' Q H. rewrite C' in Q. rewrite ST' in H. rewrite C in Q. injection Q as <-. rewrite A. destruct H as [H|H].
      * injection H as <- <-. exists x. split; [exact X|]. split; [exact NX|]. intros Q. apply in_drop in Q. destruct Q. congruence.
      * destruct (T2 c j e' C (or_intror H)) as (y & Y1 & Y2 & Y3). exists y. split; [exact Y1|]. split; [exact Y2|].
        intros Q. apply in_drop in Q. exact (Y3 (proj1 Q)).
    + intros c' j y Q Y NY. rewrite C', C in Q. injection Q as <-. rewrite A.
      destruct (T3 c j y C Y NY) as [Q|(e' & Q)].
      * destruct (Nat.eq_dec y x) as [->|NE]; [|left; apply in_drop; split; assumption].
        right. exists e. rewrite ST'. left. f_equal.
        exact (g_place _ G i j x (g_cells _ G c i x C X NX) (g_cells _ G c j x C Y NX)).
      * right. exists e'. rewrite ST in Q. rewrite ST'. destruct Q as [Q|Q]; [discriminate|right; exact Q].
    + intros c' k id Q H IN'. rewrite C', C in Q. injection Q as <-. rewrite T in H. destruct H as [H|H]; [discriminate|].
      rewrite A in IN'. apply in_drop in IN'. exact (T4 c k id C H (proj1 IN')).
    + rewrite T. intros id [Q|Q]; [discriminate|exact (T5 id Q)].
  - refine (tidy_clear s s' (FLoop i e) i e st c x TD G ST eq_refl L C X _ C' ST' _ _).
    + intros y. rewrite A. apply in_drop.
    + intros k id. rewrite T. intros [Q|Q]; [discriminate|exact Q].
    + rewrite T. intros id [Q|Q]; [discriminate|exact (t_nobad _ TD id Q)].
  - exfalso. destruct (t_free _ TD c i x C X NX) as [Q|(e' & Q)]; [exact (IN Q)|].
    pose proof (t_disjoint _ TD) as D. rewrite ST in D, Q. destruct D as (D & _). destruct Q as [Q|Q]; [discriminate|].
    specialize (D i e' Q). cbn in D. lia.
  - unfold fine in F. rewrite C, ST in F. inversion F as [|? ? F1 F2]; subst. cbn in F1.
    destruct (t_busy _ TD c i e C) as (x & X & NX & NA); [rewrite ST; left; reflexivity|].
    refine (tidy_clear s s' (FNotify i e) i e st c x TD G ST eq_refl (proj1 F1) C X _ C' ST' _ _).
    + intros y. rewrite A. split; [|tauto]. intros Y. split; [exact Y|]. intros ->. exact (NA Y).
    + intros k id. rewrite T. tauto.
    + rewrite T. exact (t_nobad _ TD).
Qed.
Lemma tidy_run l : forall s s', good s -> fine s -> tidy s -> along careful s l -> along apart s l -> run s l = Ok s' -> tidy s'.
Proof.
  induction l as [|a l IH]; intros s s' G F T CA AP H; cbn [run along] in *.
  - injection H as <-. exact T.
  - destruct CA as (CA & CL). destruct AP as (AP & PL). destruct (step s a) as [t|f] eqn:E; cbn [bind] in H; [|discriminate].
    exact (IH t s' (good_step s a t G E) (fine_step s a t F CA E) (tidy_step s a t G F T CA AP E) CL PL H).
Qed.

(* If also no call asks for what is being removed already, then GLib is never asked to remove what is not there *)
Theorem C97_complaints_partial : forall n l s id, along careful (start n) l -> along apart (start n) l -> run (start n) l = Ok s ->
  ~ In (EBad id) (s_trace s).
Proof. intros n l s id CA AP H. exact (t_nobad _ (tidy_run l _ _ (good_start n) (fine_start n) (tidy_start n) CA AP H) id). Qed.
Print Assumptions C97_complaints_partial.

(* and no identifier is forgotten: it is where it has been stored until it is removed *)
Theorem C97_kept_partial : forall n l s c k id, along careful (start n) l -> along apart (start n) l -> run (start n) l = Ok s ->
  s_cells s = Some c -> In (EStore k id) (s_trace s) -> releases id (s_trace s) = 0 -> nth_error c k = Some id.
Proof.
  intros n l s c k id CA AP H C S0 R. pose proof (good_run l _ _ (good_start n) H) as G.
  refine (t_kept _ (tidy_run l _ _ (good_start n) (fine_start n) (tidy_start n) CA AP H) c k id C S0 _).
  apply (g_alive _ G). split; [exists k; exact S0|exact R].
Qed.
Print Assumptions C97_kept_partial.

(* What was in the cells when a call began *)
Definition due (c0 : list nat) (k m j x : nat) : Prop := nth_error c0 j = Some x /\ x <> 0 /\ k <= j < k + m.
(* During a call: what was in its cells has been removed, or is still there and the call has not come to it *)
Definition called (c0 : list nat) (k m : nat) (below : list frame) (s : state) : Prop :=
  exists above f, s_stack s = above ++ f :: below /\ snd (top f) = k + m /\
    (forall j x, due c0 k m j x -> releases x (s_trace s) <> 0 \/ (fst (top f) <= j /\ exists c, s_cells s = Some c /\ nth_error c j = Some x)) /\
    (forall j x e, due c0 k m j x -> In (FNotify j e) (above ++ [f]) -> releases x (s_trace s) <> 0).

Lemma called_keep c0 k m below s s' : called c0 k m below s ->
  (forall x, releases x (s_trace s) <> 0 -> releases x (s_trace s') <> 0) ->
  (forall j x c, due c0 k m j x -> s_cells s = Some c -> nth_error c j = Some x -> exists c', s_cells s' = Some c' /\ nth_error c' j = Some x) ->
  s_stack s' = s_stack s -> called c0 k m below s'.
Proof.
  intros (above & f & ST & E & P1 & P2) R K ST'. exists above, f. split; [congruence|]. split; [exact E|]. split.
  - intros j x D. destruct (P1 j x D) as [Q|(Q1 & c & Q2 & Q3)]; [left; exact (R x Q)|].
    right. split; [exact Q1|]. exact (K j x c D Q2 Q3).
  - intros j x e D Q. exact (R x (P2 j x e D Q)).
Qed.

Lemma called_top c0 k m below s s' g g' st : called c0 k m below s -> s_stack s = g :: st -> s_stack s' = g' :: st -> snd (top g') = snd (top g) ->
  (forall x, releases x (s_trace s) <> 0 -> releases x (s_trace s') <> 0) ->
  (forall j x c, due c0 k m j x -> s_cells s = Some c -> nth_error c j = Some x ->
     releases x (s_trace s') <> 0 \/ ((fst (top g) <= j -> fst (top g') <= j) /\ exists c', s_cells s' = Some c' /\ nth_error c' j = Some x)) ->
  (forall j x e, due c0 k m j x -> g' = FNotify j e -> releases x (s_trace s') <> 0) -> called c0 k m below s'.
Proof.
  intros (above & f & ST & E & P1 & P2) STG ST' TG R K NF. rewrite ST in STG. destruct above as [|h above]; cbn [app] in STG.
  - injection STG as -> ->. exists [], g'. split; [exact ST'|]. split; [congruence|]. split.
    + intros j x D. destruct (P1 j x D) as [Q|(Q1 & c & Q2 & Q3)]; [left; exact (R x Q)|].
      destruct (K j x c D Q2 Q3) as [Q|(Q4 & Q5)]; [left; exact Q|right; split; [exact (Q4 Q1)|exact Q5]].
    + intros j x e D [Q|[]]. exact (NF j x e D Q).
  - injection STG as -> <-. exists (g' :: above), f. split; [exact ST'|]. split; [exact E|]. split.
    + intros j x D. destruct (P1 j x D) as [Q|(Q1 & c & Q2 & Q3)]; [left; exact (R x Q)|].
      destruct (K j x c D Q2 Q3) as [Q|(Q4 & Q5)]; [left; exact Q|right; split; [exact Q1|exact Q5]].
    + intros j x e D [Q|Q]; [exact (NF j x e D Q)|]. exact (R x (P2 j x e D (or_intror Q))).
Qed.

Lemma releases_cons x e tr : releases x tr <> 0 -> releases x (e :: tr) <> 0.
Proof. destruct e; cbn [releases]; lia. Qed.
Lemma releases_same x tr : releases x (ERelease x :: tr) <> 0.
Proof. cbn [releases]. rewrite Nat.eqb_refl. lia. Qed.

Lemma called_step c0 k m below s a s' : good s -> careful s a -> called c0 k m below s -> step s a = Ok s' ->
  called c0 k m below s' \/ (s_stack s' = below /\ forall j x, due c0 k m j x -> releases x (s_trace s') <> 0).
Proof.
  intros G CA CD H. unfold careful in *. apply step_effect in H.
  destruct H as [C A N T ST|k' c AC R C L C' A N T ST|c AC R C C' A N T ST|i e st c x ST L C X NX IN C' A N T ST'
                |i e st c x ST L C X NX IN C' A N T ST'|i e st c x ST L C X NX IN C' A N T ST'|i e st c ST C L C' A N T ST'].
  - destruct ST as [ST|[(k' & m' & AC & R & ST)|[(i & e & st & ST & L & ST')|(i & e & st & c & ST & L & C1 & X & ST')]]].
    + left. refine (called_keep c0 k m below s s' CD _ _ ST).
      * rewrite T. intros x Q. exact Q.
      * intros j x c D Q1 Q2. exists c. rewrite C. split; assumption.
    + left. destruct CD as (above & f & S0 & E & P1 & P2). exists (FLoop k' (k' + m') :: above), f. rewrite C, T. split; [rewrite ST, S0; reflexivity|].
      split; [exact E|]. split; [exact P1|]. intros j x e D [Q|Q]; [discriminate|]. exact (P2 j x e D Q).
    + destruct CD as (above & f & S0 & E & P1 & P2). rewrite S0 in ST. destruct above as [|h above]; cbn [app] in ST.
      * injection ST as -> ->. right. rewrite T. split; [exact ST'|]. intros j x D. destruct (P1 j x D) as [Q|(Q & _)]; [exact Q|].
        destruct D as (_ & _ & D). cbn [top fst snd] in *. lia.
      * injection ST as -> <-. left. exists above, f. rewrite C, T. split; [exact ST'|]. split; [exact E|]. split; [exact P1|].
        intros j x e' D Q. exact (P2 j x e' D (or_intror Q)).
    + left. refine (called_top c0 k m below s s' _ _ st CD ST ST' eq_refl _ _ _).
      * rewrite T. intros x Q. exact Q.
      * intros j x c' D Q1 Q2. right. cbn [top fst]. split.
        -- intros Q. destruct (Nat.eq_dec i j) as [->|NE]; [|lia]. destruct D as (_ & D & _). congruence.
        -- exists c'. rewrite C. split; assumption.
      * intros j x e' D Q. discriminate.
  - left. subst a. specialize (CA R). destruct CA as (c' & C1 & Z). rewrite C in C1. injection C1 as <-.
    refine (called_keep c0 k m below s s' CD _ _ ST).
    + rewrite T. intros x. apply releases_cons.
    + intros j x c' D Q1 Q2. rewrite C in Q1. injection Q1 as <-. eexists. split; [exact C'|].
      rewrite nth_error_upd_ne; [exact Q2|]. intros ->. destruct D as (_ & D & _). congruence.
  - exfalso. subst a. specialize (CA R). destruct CA as (_ & CA). destruct CD as (above & f & S0 & _). rewrite CA in S0. destruct above; discriminate.
  - left. refine (called_top c0 k m below s s' _ _ st CD ST ST' eq_refl _ _ _).
    + rewrite T. intros y. apply releases_cons.
    + intros j y c' D Q1 Q2. right. split; [cbn; tauto|]. exists c'. rewrite C'. split; assumption.
    + intros j y e' D Q. injection Q as <- <-. rewrite T. destruct CD as (above & f & S0 & E & P1 & P2).
      destruct (P1 i y D) as [Q|(_ & c' & Q1 & Q2)]; [apply releases_cons; exact Q|].
      assert (y = x) by congruence. subst y. apply releases_same.
  - left. refine (called_top c0 k m below s s' _ _ st CD ST ST' eq_refl _ _ _).
    + rewrite T. intros y. apply releases_cons.
    + intros j y c' D Q1 Q2. rewrite C in Q1. injection Q1 as <-. destruct (Nat.eq_dec i j) as [->|NE].
      * left. rewrite T. assert (y = x) by congruence. subst y. apply releases_same.
      * right. cbn [top fst]. split; [lia|]. eexists. split; [exact C'|]. rewrite nth_error_upd_ne; assumption.
    + intros j y e' D Q. discriminate.
  - left. refine (called_top c0 k m below s s' _ _ st CD ST ST' eq_refl _ _ _).
    + rewrite T. intros y. apply releases_cons.
    + intros j y c' D Q1 Q2. rewrite C in Q1. injection Q1 as <-. destruct (Nat.eq_dec i j) as [->|NE].
      * left. rewrite T. apply releases_cons. assert (y = x) by congruence. subst y. intros Q. apply IN. apply (g_alive _ G). split; [|exact Q].
        exists j. exact (g_cells _ G c j x C X NX).
      * right. cbn [top fst]. split; [lia|]. eexists. split; [exact C'|]. rewrite nth_error_upd_ne; assumption.
    + intros j y e' D Q. discriminate.
  - assert (NT : forall y, due c0 k m i y -> releases y (s_trace s) <> 0).
    { intros y D. destruct CD as (above & f & S0 & E & P1 & P2). rewrite ST in S0. destruct above as [|h above]; cbn [app] in S0.
      - injection S0 as <- <-. exact (P2 i y e D (or_introl eq_refl)).
      - injection S0 as <- ->. exact (P2 i y e D (or_introl eq_refl)). }
    left. refine (called_top c0 k m below s s' _ _ st CD ST ST' eq_refl _ _ _).
    + rewrite T. tauto.
    + intros j y c' D Q1 Q2. rewrite C in Q1. injection Q1 as <-. destruct (Nat.eq_dec i j) as [->|NE].
      * left. rewrite T. exact (NT y D).
      * right. cbn [top fst]. split; [lia|]. eexists. split; [exact C'|]. rewrite nth_error_upd_ne; assumption.
    + intros j y e' D Q. discriminate.
Qed.

Lemma called_until c0 k m below l : forall s s', good s -> called c0 k m below s -> along careful s l -> until (length below) s l s' ->
  forall j x, due c0 k m j x -> releases x (s_trace s') <> 0.
Proof.
  induction l as [|a l IH]; intros s s' G CD CA U; cbn [until along] in *.
  - exfalso. destruct U as (_ & U). destruct CD as (above & f & S0 & _). rewrite S0, app_length in U. cbn in U. lia.
  - destruct U as (_ & U). destruct CA as (CA & CL). destruct (step s a) as [t|f] eqn:E; [|destruct U].
    destruct (called_step c0 k m below s a t G CA CD E) as [CD'|(ST & D)].
    + exact (IH t s' (good_step s a t G E) CD' CL U).
    + destruct l as [|b l]; cbn [until] in U.
      * destruct U as (<- & _). exact D.
      * destruct U as (U & _). rewrite ST in U. lia.
Qed.

(* When a call returns, whatever the (careful) client has done in the notifications, all identifiers which were there when it began have been removed *)
Theorem C97_removes : forall n l0 s c k m t l s' j x,
  run (start n) l0 = Ok s -> running s -> s_cells s = Some c -> step s (ACall k m) = Ok t -> along careful t l -> until (length (s_stack s)) t l s' ->
  nth_error c j = Some x -> x <> 0 -> k <= j < k + m -> releases x (s_trace s') = 1.
Proof.
  intros n l0 s c k m t l s' j x H R C ST CA U X NX J.
  pose proof (good_run l0 _ _ (good_start n) H) as G. pose proof (good_step _ _ _ G ST) as G'.
  assert (GU : good s').
  { clear - G' U. revert t G' U. induction l as [|a l IH]; intros t G' U; cbn [until] in U.
    - destruct U as (<- & _). exact G'.
    - destruct U as (_ & U). destruct (step t a) as [t'|] eqn:E; [|destruct U]. exact (IH t' (good_step _ _ _ G' E) U). }
  assert (CD : called c k m (s_stack s) t).
  { unfold step in ST. unfold running in R. exists [], (FLoop k (k + m)).
    assert (T : t = St (s_cells s) (s_alive s) (s_next s) (FLoop k (k + m) :: s_stack s) (s_trace s)).
    { destruct (s_stack s) as [|[i e|i e] q] eqn:Q0; [|destruct R|]; cbn in ST; rewrite Q0 in ST; congruence. }
    rewrite T. cbn. split; [reflexivity|]. split; [reflexivity|]. split.
    - intros j' x' (D1 & D2 & D3). right. split; [lia|]. exists c. split; assumption.
    - intros j' x' e D [Q|[]]. discriminate. }
  pose proof (called_until c k m (s_stack s) l t s' G' CD CA U j x (conj X (conj NX J))) as Q.
  pose proof (g_once _ GU x). lia.
Qed.
Print Assumptions C97_removes.

(* Careful clients: what is in a cell is connected, or it is being removed *)
Definition clean (s : state) : Prop := forall c j x, s_cells s = Some c -> nth_error c j = Some x -> x <> 0 -> In x (s_alive s) \/ busy s j.
Lemma clean_start n : clean (start n).
Proof. exact (t_free _ (tidy_start n)). Qed.
Lemma clean_step s a s' : good s -> clean s -> step s a = Ok s' -> clean s'.
Proof.
  intros G CL H. unfold clean in *. apply step_effect in H.
  destruct H as [C A N T ST|k c AC R C L C' A N T ST|c AC R C C' A N T ST|i e st c x ST L C X NX IN C' A N T ST'
                |i e st c x ST L C X NX IN C' A N T ST'|i e st c x ST L C X NX IN C' A N T ST'|i e st c ST C L C' A N T ST'].
  - intros c j x. rewrite C, A. intros Q X NX. destruct (CL c j x Q X NX) as [Y|(e & Y)]; [left; exact Y|right; exists e].
    destruct ST as [ST|[(k & m & AC & R & ST)|[(i & e' & st & ST & L & ST')|(i & e' & st & c1 & ST & L & C1 & X1 & ST')]]].
    + rewrite ST. exact Y.
    + rewrite ST. right. exact Y.
    + rewrite ST in Y. rewrite ST'. destruct Y as [Y|Y]; [discriminate|exact Y].
    + rewrite ST in Y. rewrite ST'. destruct Y as [Y|Y]; [discriminate|right; exact Y].
  - intros c' j y Q Y NY. rewrite C' in Q. injection Q as <-. rewrite A. unfold busy. rewrite ST. apply nth_upd in Y. destruct Y as [(_ & ->)|(NE & Y)].
    + left. left. reflexivity.
    + destruct (CL c j y C Y NY) as [Q|Q]; [left; right; exact Q|right; exact Q].
  - intros c' j x Q. congruence.
  - intros c' j y Q Y NY. rewrite C', C in Q. injection Q as <-. rewrite A. unfold busy. rewrite ST'.
    destruct (CL c j y C Y NY) as [Q|(e' & Q)].
    + destruct (Nat.eq_dec y x) as [->|NE]; [|left; apply in_drop; split; assumption].
      right. exists e. left. f_equal. exact (g_place _ G i j x (g_cells _ G c i x C X NX) (g_cells _ G c j x C Y NX)).
    + right. exists e'. rewrite ST in Q. destruct Q as [Q|Q]; [discriminate|right; exact Q].
  - intros c' j y Q Y NY. rewrite C' in Q. injection Q as <-. apply nth_upd in Y. destruct Y as [(_ & ->)|(NE & Y)]; [congruence|].
    rewrite A. unfold busy. rewrite ST'. destruct (CL c j y C Y NY) as [Q|(e' & Q)].
    + destruct (Nat.eq_dec y x) as [->|NXY]; [|left; apply in_drop; split; assumption].
      elim NE. exact (g_place _ G i j x (g_cells _ G c i x C X NX) (g_cells _ G c j x C Y NX)).
    + right. exists e'. rewrite ST in Q. destruct Q as [Q|Q]; [discriminate|right; exact Q].
  - intros c' j y Q Y NY. rewrite C' in Q. injection Q as <-. apply nth_upd in Y. destruct Y as [(_ & ->)|(NE & Y)]; [congruence|].
    rewrite A. unfold busy. rewrite ST'. destruct (CL c j y C Y NY) as [Q|(e' & Q)]; [left; exact Q|].
    right. exists e'. rewrite ST in Q. destruct Q as [Q|Q]; [discriminate|right; exact Q].
  - intros c' j y Q Y NY. rewrite C' in Q. injection Q as <-. apply nth_upd in Y. destruct Y as [(_ & ->)|(NE & Y)]; [congruence|].
    rewrite A. unfold busy. rewrite ST'. destruct (CL c j y C Y NY) as [Q|(e' & Q)]; [left; exact Q|].
    right. exists e'. rewrite ST in Q. destruct Q as [Q|Q]; [injection Q as Q _; congruence|right; exact Q].
Qed.
Lemma clean_run l : forall s s', good s -> clean s -> run s l = Ok s' -> clean s'.
Proof.
  induction l as [|a l IH]; intros s s' G C H; cbn [run] in H.
  - injection H as <-. exact C.
  - destruct (step s a) as [t|f] eqn:E; cbn [bind] in H; [|discriminate].
    exact (IH t s' (good_step s a t G E) (clean_step s a t G C E) H).
Qed.

(* Whatever the client does, GLib is asked to remove what is not there only by a call which meets the cell of something that is being removed *)
Theorem C97_complaint : forall n l s a s' id, run (start n) l = Ok s -> step s a = Ok s' -> s_trace s' = EBad id :: s_trace s ->
  exists i e st c, s_stack s = FLoop i e :: st /\ s_cells s = Some c /\ nth_error c i = Some id /\ busy s i /\ releases id (s_trace s) = 1.
Proof.
  intros n l s a s' id H ST TR. pose proof (good_run l _ _ (good_start n) H) as G. pose proof (clean_run l _ _ (good_start n) (clean_start n) H) as CL.
  apply step_effect in ST.
  destruct ST as [C A N T ST|k c AC R C L C' A N T ST|c AC R C C' A N T ST|i e st c x ST L C X NX IN C' A N T ST'
                |i e st c x ST L C X NX IN C' A N T ST'|i e st c x ST L C X NX IN C' A N T ST'|i e st c ST C L C' A N T ST'];
    rewrite T in TR; try discriminate; try (exfalso; apply (f_equal (@length event)) in TR; cbn in TR; lia).
  injection TR as ->. exists i, e, st, c. split; [exact ST|]. split; [exact C|]. split; [exact X|]. split.
  - destruct (CL c i id C X NX) as [Q|Q]; [elim (IN Q)|exact Q].
  - pose proof (g_once _ G id). destruct (Nat.eq_dec (releases id (s_trace s)) 0) as [Q|Q]; [|lia].
    elim IN. apply (g_alive _ G). split; [|exact Q]. exists i. exact (g_cells _ G c i id C X NX).
Qed.
Print Assumptions C97_complaint.

(* Deciders for the examples *)
Fixpoint alongb (P : state -> action -> bool) (s : state) (l : list action) : bool :=
  match l with [] => true | a :: l => P s a && match step s a with Ok s => alongb P s l | Fail _ => true end end.
Lemma alongb_ok (P : state -> action -> Prop) p : (forall s a, p s a = true -> P s a) -> forall l s, alongb p s l = true -> along P s l.
Proof.
  intros H. induction l as [|a l IH]; intros s Q; cbn [along alongb] in *; [exact Logic.I|].
  apply andb_prop in Q. destruct Q as (Q1 & Q2). split; [exact (H s a Q1)|]. destruct (step s a); [exact (IH _ Q2)|exact Logic.I].
Qed.
Definition idle (s : state) : bool := match s_stack s with FLoop _ _ :: _ => false | _ => true end.
Definition carefulb (s : state) (a : action) : bool :=
  negb (idle s) ||
  match a, s_cells s with
  | ACall k m, Some c => Nat.leb (k + m) (length c)
  | AStore k, Some c => match nth_error c k with Some 0 => true | _ => false end
  | AFree, Some _ => match s_stack s with [] => true | _ => false end
  | ACall _ _, None | AStore _, None | AFree, None => false
  | _, _ => true
  end.
Lemma idle_ok s : running s -> idle s = true.
Proof. unfold running, idle. destruct (s_stack s) as [|[] ?]; [reflexivity|intros []|reflexivity]. Qed.
Lemma carefulb_ok s a : carefulb s a = true -> careful s a.
Proof.
  unfold carefulb, careful. intros H R. rewrite (idle_ok s R) in H. cbn [negb orb] in H. destruct a as [k m|k| |b|]; try exact Logic.I.
  - destruct (s_cells s) as [c|]; [|discriminate]. apply Nat.leb_le in H. exists c. split; [reflexivity|exact H].
  - destruct (s_cells s) as [c|]; [|discriminate]. exists c. split; [reflexivity|]. destruct (nth_error c k) as [[|x]|]; [reflexivity|discriminate|discriminate].
  - destruct (s_cells s) as [c|]; [|discriminate]. split; [discriminate|]. destruct (s_stack s); [reflexivity|discriminate].
Qed.
Definition apartb (s : state) (a : action) : bool :=
  match a with
  | ACall k m => forallb (fun f => match f with FNotify j _ => Nat.ltb j k || Nat.leb (k + m) j | _ => true end) (s_stack s)
  | _ => true
  end.
Lemma apartb_ok s a : apartb s a = true -> apart s a.
Proof.
  unfold apartb, apart. intros H _. destruct a as [k m|k| |b|]; try exact Logic.I. intros j (e & B). rewrite forallb_forall in H. specialize (H _ B). cbn in H.
  apply orb_prop in H. destruct H as [H|H]; [apply Nat.ltb_lt in H|apply Nat.leb_le in H]; lia.
Qed.

(* Two handlers; the notification of the first removes the second and connects another one in its place *)
Definition ex_l := [AStore 0; AStore 1; ACall 0 1; AStep true; ACall 1 1; AStep false; AStep false; AStore 1; AReturn; AStep false].
Definition ex_s := Eval vm_compute in match run (start 3) ex_l with Ok s => s | Fail _ => start 0 end.
Example C97_example_run : run (start 3) ex_l = Ok ex_s /\ along careful (start 3) ex_l /\ along apart (start 3) ex_l /\
  s_cells ex_s = Some [0; 3; 0] /\ s_alive ex_s = [3] /\ s_trace ex_s = [EStore 1 3; ERelease 2; ERelease 1; EStore 1 2; EStore 0 1].
Proof.
  split; [vm_compute; reflexivity|]. split; [apply (alongb_ok _ _ carefulb_ok); vm_compute; reflexivity|].
  split; [apply (alongb_ok _ _ apartb_ok); vm_compute; reflexivity|]. repeat split; reflexivity.
Qed.
Example C97_example_once : releases 2 (s_trace ex_s) = 1 /\ releases 3 (s_trace ex_s) = 0.
Proof. split; reflexivity. Qed.
(* A call which removes two handlers; the notification of the first does the same: it takes the second away from the outer call *)
Definition ex2_l := [AStep true; ACall 0 2; AStep false; AStep true; AReturn; AStep false; AReturn; AStep false; AStep false].
Definition ex2_s := Eval vm_compute in match run (start 2) [AStore 0; AStore 1] with Ok s => s | Fail _ => start 0 end.
Definition ex2_t := Eval vm_compute in match step ex2_s (ACall 0 2) with Ok s => s | Fail _ => start 0 end.
Definition ex2_e := Eval vm_compute in match run ex2_t ex2_l with Ok s => s | Fail _ => start 0 end.
Example C97_example_removes : run (start 2) [AStore 0; AStore 1] = Ok ex2_s /\ running ex2_s /\ s_cells ex2_s = Some [1; 2] /\
  step ex2_s (ACall 0 2) = Ok ex2_t /\ along careful ex2_t ex2_l /\ until (length (s_stack ex2_s)) ex2_t ex2_l ex2_e /\
  s_trace ex2_e = [ERelease 2; EBad 1; ERelease 1; EStore 1 2; EStore 0 1] /\ s_cells ex2_e = Some [0; 0].
Proof.
  split; [vm_compute; reflexivity|]. split; [exact Logic.I|]. split; [reflexivity|]. split; [vm_compute; reflexivity|].
  split; [apply (alongb_ok _ _ carefulb_ok); vm_compute; reflexivity|]. split; [|split; reflexivity].
  cbn -[Nat.lt]. repeat split; lia.
Qed.
Example C97_example_complaint : exists s s', run (start 2) [AStore 0; AStore 1; ACall 0 2; AStep true; ACall 0 2] = Ok s /\ step s (AStep false) = Ok s' /\
  s_trace s' = EBad 1 :: s_trace s.
Proof. do 2 eexists. split; [vm_compute; reflexivity|]. split; [vm_compute; reflexivity|reflexivity]. Qed.

(* The array is cleared after the notification: a notification which calls again for the same handler makes GLib complain *)
Theorem C97_complaints_refuted : exists l s, along careful (start 1) l /\ run (start 1) l = Ok s /\ In (EBad 1) (s_trace s).
Proof.
  exists [AStore 0; ACall 0 1; AStep true; ACall 0 1; AStep false]. eexists. split; [apply (alongb_ok _ _ carefulb_ok); vm_compute; reflexivity|].
  split; [vm_compute; reflexivity|]. left. reflexivity.
Qed.
Print Assumptions C97_complaints_refuted.

(* One which connects another handler in place of the one that is gone (it overwrites only an identifier which is not connected) loses it *)
Definition replaces (s : state) (a : action) : Prop :=
  match a with AStore k => exists c x, s_cells s = Some c /\ nth_error c k = Some x /\ ~ In x (s_alive s) | AFree => False | _ => careful s a end.
Theorem C97_kept_refuted : exists l s, along replaces (start 1) l /\ along apart (start 1) l /\ run (start 1) l = Ok s /\
  s_stack s = [] /\ In 2 (s_alive s) /\ s_cells s = Some [0].
Proof.
  exists [AStore 0; ACall 0 1; AStep true; AStore 0; AReturn; AStep false]. eexists. split.
  - cbn -[Nat.lt]. repeat split; try (intros _; exact Logic.I).
    + exists [0], 0. repeat split. intros [].
    + apply carefulb_ok. reflexivity.
    + exists [1], 1. repeat split. intros [].
  - split; [apply (alongb_ok _ _ apartb_ok); vm_compute; reflexivity|]. split; [vm_compute; reflexivity|].
    cbn. repeat split. left. reflexivity.
Qed.
Print Assumptions C97_kept_refuted.

(* and one which frees the array (with the last reference to its owner) makes the function write to freed memory *)
Theorem C97_memory_refuted : exists l, along (fun s a => a = AFree \/ careful s a) (start 1) l /\ run (start 1) l = Fail UseAfterFree.
Proof.
  exists [AStore 0; ACall 0 1; AStep true; AFree; AReturn]. split; [|vm_compute; reflexivity].
  apply (alongb_ok _ (fun s a => match a with AFree => true | _ => carefulb s a end)); [|vm_compute; reflexivity].
  intros s a H. destruct a; try (right; apply carefulb_ok; exact H). left. reflexivity.
Qed.
Print Assumptions C97_memory_refuted.
