(* The invariant of all executions *)
From Coq Require Import Sorting.Sorted.
From Verif Require Import Base InotifyModel InotifySpec InotifyParse.

(* ---------------- heaps ---------------- *)

Definition live {A} (h : list (option A)) (a : nat) (x : A) : Prop := nth_error h a = Some (Some x).
Fixpoint nlive {A} (h : list (option A)) : Z := match h with [] => 0 | Some _ :: h => 1 + nlive h | None :: h => nlive h end.

Lemma get_live {A} (h : list (option A)) a x : live h a x -> get h a = Ok x.
Proof. unfold live, get. intros ->. reflexivity. Qed.
Lemma put_live {A} (h : list (option A)) a x y : live h a x -> put h a y = Ok (upd h a (Some y)).
Proof. intros H. unfold put. rewrite (get_live _ _ _ H). reflexivity. Qed.
Lemma release_live {A} (h : list (option A)) a x : live h a x -> release h a = Ok (upd h a None).
Proof. intros H. unfold release. rewrite (get_live _ _ _ H). reflexivity. Qed.
Lemma live_lt {A} (h : list (option A)) a x : live h a x -> (a < length h)%nat.
Proof. unfold live. intros H. apply nth_error_Some. congruence. Qed.
Lemma live_eq {A} (h : list (option A)) a x y : live h a x -> live h a y -> x = y.
Proof. unfold live. congruence. Qed.
Lemma live_upd_eq {A} (h : list (option A)) a x y : live h a x -> live (upd h a (Some y)) a y.
Proof. intros H. apply nth_error_upd_eq, (live_lt _ _ _ H). Qed.
Lemma live_upd_ne {A} (h : list (option A)) a b o y : a <> b -> live (upd h a o) b y <-> live h b y.
Proof. intros H. unfold live. rewrite nth_error_upd_ne by auto. reflexivity. Qed.
Lemma live_upd {A} (h : list (option A)) a o b y : live (upd h a o) b y -> (a = b /\ o = Some y) \/ (a <> b /\ live h b y).
Proof.
  intros H. destruct (Nat.eq_dec a b) as [->|N].
  - left. split; auto. unfold live in H. rewrite nth_error_upd_eq in H; [congruence|].
    apply live_lt in H. rewrite upd_length in H. exact H.
  - right. apply live_upd_ne in H; auto.
Qed.
Lemma live_app {A} (h : list (option A)) x b y : live (h ++ [Some x]) b y -> (b = length h /\ y = x) \/ live h b y.
Proof.
  unfold live. intros H. destruct (Nat.lt_ge_cases b (length h)) as [L|L].
  - right. rewrite nth_error_app1 in H; auto.
  - left. rewrite nth_error_app2 in H by auto. destruct (b - length h)%nat eqn:E; cbn in H; [split; [lia|congruence]|].
    destruct n; discriminate.
Qed.
Lemma live_app_l {A} (h : list (option A)) x b y : live h b y -> live (h ++ [Some x]) b y.
Proof. intros H. unfold live. rewrite nth_error_app1; [exact H|apply (live_lt _ _ _ H)]. Qed.
Lemma live_app_r {A} (h : list (option A)) x : live (h ++ [Some x]) (length h) x.
Proof. unfold live. rewrite nth_error_app2, Nat.sub_diag by auto. reflexivity. Qed.

Lemma nlive_nonneg {A} (h : list (option A)) : 0 <= nlive h.
Proof. induction h as [|[x|] h IH]; cbn [nlive]; lia. Qed.
Lemma nlive_live {A} (h : list (option A)) a x : live h a x -> 1 <= nlive h.
Proof.
  unfold live. revert a; induction h as [|[y|] h IH]; intros a H; [destruct a; discriminate| |].
  - pose proof (nlive_nonneg h). cbn [nlive]. lia.
  - destruct a; [discriminate|]. cbn [nlive]. eapply IH, H.
Qed.
Lemma nlive_0 {A} (h : list (option A)) : nlive h = 0 -> forall a x, ~ live h a x.
Proof. intros H a x L. pose proof (nlive_live _ _ _ L). lia. Qed.
Lemma nlive_none {A} (h : list (option A)) : (forall a x, ~ live h a x) -> nlive h = 0.
Proof.
  induction h as [|[y|] h IH]; intros H; [reflexivity| |].
  - exfalso. apply (H O y). reflexivity.
  - cbn [nlive]. apply IH. intros a x L. apply (H (S a) x). exact L.
Qed.
Lemma nlive_some {A} (h : list (option A)) : 1 <= nlive h -> exists a x, live h a x.
Proof.
  induction h as [|[y|] h IH]; cbn [nlive]; intros H; [lia| |].
  - exists O, y. reflexivity.
  - destruct (IH H) as (a & x & L). exists (S a), x. exact L.
Qed.
Lemma nlive_put {A} (h : list (option A)) a x y : live h a x -> nlive (upd h a (Some y)) = nlive h.
Proof.
  unfold live. revert a; induction h as [|z h IH]; intros a H; [destruct a; discriminate|].
  destruct a; cbn in *; [injection H as ->; reflexivity|]. destruct z; rewrite (IH _ H); reflexivity.
Qed.
Lemma nlive_release {A} (h : list (option A)) a x : live h a x -> nlive (upd h a None) = nlive h - 1.
Proof.
  unfold live. revert a; induction h as [|z h IH]; intros a H; [destruct a; discriminate|].
  destruct a; cbn [upd nlive nth_error] in *; [injection H as ->; lia|]. destruct z; rewrite (IH _ H); lia.
Qed.
Lemma nlive_app {A} (h : list (option A)) x : nlive (h ++ [Some x]) = nlive h + 1.
Proof. induction h as [|[y|] h IH]; cbn [nlive app]; lia. Qed.

Definition wrefs (h : list (option watch)) (w : nat) : Z := match nth_error h w with Some (Some x) => w_refs x | _ => 0 end.
Lemma wrefs_live h w x : live h w x -> wrefs h w = w_refs x.
Proof. unfold live, wrefs. intros ->. reflexivity. Qed.
Lemma wrefs_upd h w o v : (w < length h)%nat -> wrefs (upd h w o) v = if Nat.eqb v w then (match o with Some x => w_refs x | None => 0 end) else wrefs h v.
Proof.
  intros H. unfold wrefs. destruct (Nat.eqb_spec v w) as [->|N].
  - rewrite nth_error_upd_eq by auto. destruct o; reflexivity.
  - rewrite nth_error_upd_ne by auto. reflexivity.
Qed.
Lemma wrefs_app h x v : wrefs (h ++ [Some x]) v = if Nat.eqb v (length h) then w_refs x else wrefs h v.
Proof.
  unfold wrefs. destruct (Nat.eqb_spec v (length h)) as [->|N].
  - rewrite nth_error_app2, Nat.sub_diag by auto. reflexivity.
  - destruct (Nat.lt_ge_cases v (length h)) as [L|L].
    + rewrite nth_error_app1 by auto. reflexivity.
    + rewrite (proj2 (nth_error_None h v)) by auto. rewrite (proj2 (nth_error_None _ v)); [reflexivity|].
      rewrite app_length. cbn. lia.
Qed.
Lemma wrefs_dead h w : (forall x, ~ live h w x) -> wrefs h w = 0.
Proof. unfold live, wrefs. intros H. destruct (nth_error h w) as [[x|]|] eqn:E; auto. destruct (H x eq_refl). Qed.

(* ---------------- hash table, kernel ---------------- *)

Lemma lookup_remove t wd v : t_lookup (t_remove t wd) v = if v =? wd then None else t_lookup t v.
Proof.
  unfold t_lookup, t_remove. induction t as [|[k w] t IH]; cbn [filter find fst].
  - destruct (v =? wd); reflexivity.
  - destruct (Z.eqb_spec k wd) as [->|N]; cbn [negb].
    + rewrite IH. destruct (Z.eqb_spec v wd) as [E|N]; [reflexivity|]. destruct (Z.eqb_spec wd v); [congruence|]. reflexivity.
    + cbn [find fst]. destruct (Z.eqb_spec k v) as [->|N2].
      * destruct (Z.eqb_spec v wd); [congruence|]. reflexivity.
      * rewrite IH. reflexivity.
Qed.
Lemma lookup_insert t wd w v : t_lookup (t_insert t wd w) v = if v =? wd then Some w else t_lookup t v.
Proof.
  unfold t_insert. unfold t_lookup at 1. cbn [find fst]. destruct (Z.eqb_spec wd v) as [->|N].
  - rewrite Z.eqb_refl. reflexivity.
  - fold (t_lookup (t_remove t wd) v). rewrite lookup_remove. destruct (Z.eqb_spec v wd); [congruence|reflexivity].
Qed.

Lemma lowest_free l : forall f, ~ live l (lowest l) f.
Proof.
  unfold live. induction l as [|[x|] l IH]; cbn; intros f H; [discriminate| |discriminate]. eapply IH, H.
Qed.
Lemma lowest_le l : (lowest l <= length l)%nat.
Proof. induction l as [|[x|] l IH]; cbn; lia. Qed.
Lemma open_new l f : live (open_file l f) (lowest l) f.
Proof.
  unfold open_file. destruct (Nat.ltb_spec (lowest l) (length l)) as [H|H].
  - apply nth_error_upd_eq, H.
  - replace (lowest l) with (length l) by (pose proof (lowest_le l); lia). apply live_app_r.
Qed.
Lemma open_old l f fd g : live l fd g -> live (open_file l f) fd g.
Proof.
  intros H. unfold open_file. destruct (Nat.ltb_spec (lowest l) (length l)).
  - apply live_upd_ne; auto. intros <-. apply (lowest_free _ _ H).
  - apply live_app_l, H.
Qed.
Lemma open_inv l f fd g : live (open_file l f) fd g -> (fd = lowest l /\ g = f) \/ live l fd g.
Proof.
  unfold open_file. destruct (Nat.ltb_spec (lowest l) (length l)) as [H|H]; intros L.
  - apply live_upd in L. destruct L as [[<- E]|[_ L]]; [left; split; congruence|auto].
  - apply live_app in L. destruct L as [[-> ->]|L]; [|auto]. left. split; auto. pose proof (lowest_le l). lia.
Qed.

Definition kfine (k : kfile) : Prop := 0 <= k_last k /\ Forall (fun x => 1 <= snd x <= k_last k) (k_list k).
Definition kernel_ok (l : list (option file)) (fd : nat) : Prop := exists k, live l fd (IFile k) /\ kfine k.

Lemma find_In {A} (f : A -> bool) l x : find f l = Some x -> In x l /\ f x = true.
Proof. apply find_some. Qed.
Lemma kadd_ok l fd n : kernel_ok l fd -> exists l' wd, kadd l fd n = Some (l', wd) /\ 1 <= wd /\ kernel_ok l' fd.
Proof.
  intros (k & L & H0 & H). unfold kadd. rewrite L. destruct (find _ (k_list k)) as [[m wd]|] eqn:E.
  - exists l, wd. split; [reflexivity|]. apply find_some in E. rewrite Forall_forall in H. destruct (H _ (proj1 E)) as [H1 H2]. cbn in *.
    split; [auto|]. exists k. split; auto. split; auto. apply Forall_forall, H.
  - eexists _, _. split; [reflexivity|]. split; [lia|]. eexists. split; [eapply live_upd_eq, L|]. split; cbn; [lia|].
    constructor; cbn; [lia|]. eapply Forall_impl; [|exact H]. cbn. lia.
Qed.
Lemma kfine_filter k f : kfine k -> kfine (KFile (k_last k) (filter f (k_list k))).
Proof.
  intros [H0 H]. split; auto. cbn. rewrite Forall_forall in *. intros x Hx. apply filter_In in Hx. apply H, Hx.
Qed.
Lemma krm_ok l fd fd' wd : kernel_ok l fd -> kernel_ok (krm l fd' wd) fd.
Proof.
  intros (k & L & H). unfold krm. destruct (nth_error l fd') as [[[k'|]|]|] eqn:E; try (exists k; auto; fail).
  destruct (Nat.eq_dec fd' fd) as [->|N].
  - rewrite L in E. injection E as <-. eexists. split; [eapply live_upd_eq, L|]. apply kfine_filter, H.
  - exists k. split; auto. apply live_upd_ne; auto.
Qed.
Lemma kdrop_ok l fd fd' n : kernel_ok l fd -> kernel_ok (kdrop l fd' n) fd.
Proof.
  intros (k & L & H). unfold kdrop. destruct (nth_error l fd') as [[[k'|]|]|] eqn:E; try (exists k; auto; fail).
  destruct (Nat.eq_dec fd' fd) as [->|N].
  - rewrite L in E. injection E as <-. eexists. split; [eapply live_upd_eq, L|]. apply kfine_filter, H.
  - exists k. split; auto. apply live_upd_ne; auto.
Qed.

(* ---------------- the invariant ---------------- *)

Definition is_emit (w : nat) (f : frame) : Z := match f with FEmit _ v _ _ _ _ _ _ => if Nat.eqb w v then 1 else 0 | _ => 0 end.
Fixpoint emits (w : nat) (k : list frame) : Z := match k with [] => 0 | f :: k => is_emit w f + emits w k end.
Fixpoint loops (k : list frame) : Z := match k with [] => 0 | FLoop _ _ _ :: k => 1 + loops k | _ :: k => loops k end.
Lemma emits_nonneg w k : 0 <= emits w k.
Proof. induction k as [|f k IH]; cbn [emits]; [lia|]. destruct f; cbn [is_emit]; try destruct (Nat.eqb _ _); lia. Qed.

Definition within (last max j : nat) : bool := Nat.ltb last j && Nat.ltb j max.

Definition incr (nid : nat) (l : list nat) : Prop := StronglySorted lt l /\ Forall (fun j => (1 <= j < nid)%nat) l.

(* xw: references to watches which are held by functions on their way *)
Record common (s : state) (xw : nat -> Z) : Prop := {
  co_owned : forall w, 0 <= owned (s_trace s) w;
  co_refs : forall w, wrefs (s_watches s) w = owned (s_trace s) w + emits w (s_stack s) + xw w;
  co_pos : forall w x, live (s_watches s) w x -> 1 <= w_refs x;
  co_hand : forall w x, live (s_watches s) w x -> w_handlers x = connected (s_trace s) w;
  co_incr : forall w, incr (s_nid s) (connected (s_trace s) w);
  co_new : forall w, (length (s_watches s) <= w)%nat -> connected (s_trace s) w = [];
  co_reg : forall j wd, (length (s_insts s) <= j)%nat -> registered (s_trace s) j wd = None;
  co_init : forall j, (exists fd, In (EInit j fd) (s_trace s)) <-> (j < length (s_insts s))%nat;
  co_gone : forall j, In (EGoneInst j) (s_trace s) <-> nth_error (s_insts s) j = Some None;
  co_nsrc : (1 <= s_nsrc s)%nat;
  co_nid : (1 <= s_nid s)%nat }.

Inductive phase (i : nat) : list frame -> list (nat * nat * bool) -> nat -> Prop :=
| ph_idle sid : sid <> O -> phase i [] [(sid, i, false)] sid
| ph_deaf : phase i [] [] O
| ph_end sid : sid <> O -> phase i [FEnd sid true] [(sid, i, true)] sid
| ph_fail sid : sid <> O -> phase i [FEnd sid false] [(sid, i, true)] O
| ph_loop sid o n : sid <> O -> phase i [FLoop i o n; FEnd sid true] [(sid, i, true)] sid
| ph_emit sid w wd m c p last max o n : sid <> O -> phase i [FEmit i w wd m c p last max; FLoop i o n; FEnd sid true] [(sid, i, true)] sid
| ph_hand sid w id wd m c p last max o n : sid <> O ->
    phase i [FHandler w id; FEmit i w wd m c p last max; FLoop i o n; FEnd sid true] [(sid, i, true)] sid.

Definition tale_emit (buf : list (option Z)) (nid : nat) (tr : list event) i w wd m c path last max o n : Prop :=
  exists p e, follows tr (Telling i w e (filter (within last max) (connected tr w)) p) /\ e_wd e = wd /\ e_mask e = m /\ e_cookie e = c /\
    name_at buf path (e_name e) /\ at_buf buf o n p /\ (max <= nid)%nat.
Definition tale (buf : list (option Z)) (nid : nat) (k : list frame) (tr : list event) : Prop :=
  match k with
  | FLoop i o n :: _ => exists p, follows tr (Reading i p) /\ at_buf buf o n p
  | FEmit i w wd m c path last max :: FLoop _ o n :: _ => tale_emit buf nid tr i w wd m c path last max o n
  | FHandler _ _ :: FEmit i w wd m c path last max :: FLoop _ o n :: _ => tale_emit buf nid tr i w wd m c path last max o n
  | _ => follows tr Idle
  end.

Record alive (s : state) (i : nat) (q : instance) (xi : Z) : Prop := {
  al_var : s_var s = Some i;
  al_live : live (s_insts s) i q;
  al_one : forall j x, live (s_insts s) j x -> j = i;
  al_w : forall w x, live (s_watches s) w x -> w_inst x = i;
  al_reg : forall wd, t_lookup (i_watches q) wd = registered (s_trace s) i wd;
  al_tab : forall wd w, t_lookup (i_watches q) wd = Some w -> exists x, live (s_watches s) w x /\ w_wd x = wd /\ 0 <= wd;
  al_buf : len (i_buf q) = 272;
  al_fd : kernel_ok (s_fds s) (i_fd q);
  al_refs : i_refs q = nlive (s_watches s) + loops (s_stack s) + xi;
  al_phase : phase i (s_stack s) (s_srcs s) (i_src q);
  al_tale : tale (i_buf q) (s_nid s) (s_stack s) (s_trace s) }.

Definition none (s : state) : Prop :=
  s_var s = None /\ nlive (s_insts s) = 0 /\ nlive (s_watches s) = 0 /\ s_srcs s = [] /\
  (s_stack s = [] \/ exists sid ok, s_stack s = [FEnd sid ok]) /\ follows (s_trace s) Idle.
Definition closing (s : state) (i : nat) (q : instance) : Prop :=
  s_var s = Some i /\ live (s_insts s) i q /\ (forall j x, live (s_insts s) j x -> j = i) /\ nlive (s_watches s) = 0 /\ s_srcs s = [] /\
  (s_stack s = [FClose i] \/ exists sid ok, s_stack s = [FClose i; FEnd sid ok]) /\ follows (s_trace s) Idle.
Definition zero : nat -> Z := fun _ => 0.
Definition inv (s : state) : Prop :=
  common s zero /\ (none s \/ (exists i q, closing s i q) \/ (exists i q, alive s i q 0 /\ 1 <= i_refs q)).

Definition neutral (e : event) : bool :=
  match e with
  | ENone | EGone _ | EReturn | ESource _ _ | EUnsource _ | EBadRemove _ | EClose _ _ | EBadClose _ => true
  | _ => false
  end.

Lemma common_emit s xw e : neutral e = true -> common s xw -> common (emit s e) xw.
Proof.
  intros N C. destruct C. destruct e; try discriminate N; constructor; cbn [emit s_trace s_watches s_insts s_stack s_nid s_nsrc owned connected registered] in *; auto; intros j.
  all: try (rewrite <- co_gone0; cbn [In]; split; [intros [H|H]; [discriminate H|exact H]|auto]; fail).
  all: rewrite <- co_init0; cbn [In]; split; [intros [y [H|H]]; [discriminate H|eauto]|intros [y H]; eauto].
Qed.

Lemma follows_neutral tr c e : neutral e = true -> follows tr c -> follows (e :: tr) c.
Proof. intros N F. apply fo_other; auto. destruct e; try discriminate N; reflexivity. Qed.

(* the trace may grow if nothing the tale is about changes *)
Lemma tale_other buf nid nid' k tr e : (nid <= nid')%nat -> telling e = false ->
  (forall last max w, (max <= nid)%nat -> filter (within last max) (connected (e :: tr) w) = filter (within last max) (connected tr w)) ->
  tale buf nid k tr -> tale buf nid' k (e :: tr).
Proof.
  intros Hn T C. unfold tale.
  assert (G : forall i w wd m c path last max o n, tale_emit buf nid tr i w wd m c path last max o n -> tale_emit buf nid' (e :: tr) i w wd m c path last max o n).
  { intros i w wd m c path last max o n (p & ev & F & H1 & H2 & H3 & H4 & H5 & H6). exists p, ev. rewrite C by auto. refine (conj _ (conj H1 (conj H2 (conj H3 (conj H4 (conj H5 _)))))); [apply fo_other; auto|lia]. }
  assert (I : follows tr Idle -> follows (e :: tr) Idle) by (intros F; apply fo_other; auto).
  destruct k as [|f k]; auto. destruct f; auto.
  - intros (p & F & H). exists p. split; auto. apply fo_other; auto.
  - destruct k as [|f k]; auto. destruct f; auto.
  - destruct k as [|f k]; auto. destruct f; auto. destruct k as [|f k]; auto. destruct f; auto.
Qed.

Lemma alive_emit s i q xi e : neutral e = true -> alive s i q xi -> alive (emit s e) i q xi.
Proof.
  intros N A. destruct A. constructor; cbn [emit s_trace s_watches s_insts s_stack s_nid s_nsrc s_srcs s_fds s_var] in *; auto.
  - intros wd. rewrite al_reg0. destruct e; try discriminate N; reflexivity.
  - eapply tale_other; [| | |exact al_tale0]; auto; destruct e; try discriminate N; auto.
Qed.

Lemma inv_emit s e : neutral e = true -> inv s -> inv (emit s e).
Proof.
  intros N [C [H|[(i & q & H)|(i & q & H & R)]]].
  - split; [apply common_emit; auto|]. left. destruct H as (H1 & H2 & H3 & H4 & H5 & H6). repeat split; auto. apply follows_neutral; auto.
  - split; [apply common_emit; auto|]. right. left. exists i, q. destruct H as (H1 & H2 & H3 & H4 & H5 & H6 & H7). repeat split; auto. apply follows_neutral; auto.
  - split; [apply common_emit; auto|]. right. right. exists i, q. split; auto. apply alive_emit; auto.
Qed.

(* ---------------- references to the instance ---------------- *)

Lemma common_insts s xw i q q' : live (s_insts s) i q -> common s xw -> common (set_insts s (upd (s_insts s) i (Some q'))) xw.
Proof.
  intros L C. destruct C. constructor; cbn [set_insts s_trace s_watches s_insts s_stack s_nid s_nsrc] in *; auto.
  - intros j wd H. rewrite upd_length in H. auto.
  - intros j. rewrite upd_length. auto.
  - intros j. rewrite co_gone0. destruct (Nat.eq_dec i j) as [<-|N].
    + rewrite nth_error_upd_eq by apply (live_lt _ _ _ L). unfold live in L. rewrite L. split; discriminate.
    + rewrite nth_error_upd_ne by auto. reflexivity.
Qed.

Lemma one_upd {A} (h : list (option A)) i q q' : live h i q -> (forall j x, live h j x -> j = i) -> forall j x, live (upd h i (Some q')) j x -> j = i.
Proof. intros L H j x K. apply live_upd in K. destruct K as [[-> _]|[_ K]]; eauto. Qed.

(* q' differs in the number of references *)
Lemma alive_refs s i q xi n : alive s i q xi -> alive (set_insts s (upd (s_insts s) i (Some (set_refs q (i_refs q + n))))) i (set_refs q (i_refs q + n)) (xi + n).
Proof.
  intros A. destruct A. constructor; cbn [set_insts set_refs s_trace s_watches s_insts s_stack s_nid s_nsrc s_srcs s_fds s_var i_refs i_fd i_watches i_src i_buf] in *; auto.
  - eapply live_upd_eq; eauto.
  - eapply one_upd; eauto.
  - lia.
Qed.

Lemma put_inst_live s i q q' : live (s_insts s) i q -> put_inst s i q' = Ok (set_insts s (upd (s_insts s) i (Some q'))).
Proof. intros L. unfold put_inst. rewrite (put_live _ _ _ _ L). reflexivity. Qed.
Lemma put_watch_live s w x x' : live (s_watches s) w x -> put_watch s w x' = Ok (set_watches s (upd (s_watches s) w (Some x'))).
Proof. intros L. unfold put_watch. rewrite (put_live _ _ _ _ L). reflexivity. Qed.

Lemma common_same s s' xw : s_trace s' = s_trace s -> s_watches s' = s_watches s -> s_insts s' = s_insts s ->
  (forall w, emits w (s_stack s') = emits w (s_stack s)) -> s_nid s' = s_nid s -> s_nsrc s' = s_nsrc s -> common s xw -> common s' xw.
Proof.
  intros E1 E2 E3 E4 E5 E6 C. destruct C. constructor; rewrite ?E1, ?E2, ?E3, ?E5, ?E6; auto. intros w. rewrite E4. auto.
Qed.

Lemma close_inv s fd : exists e, neutral e = true /\
  close s fd = emit (set_fds s (match nth_error (s_fds s) fd with Some (Some _) => upd (s_fds s) fd None | _ => s_fds s end)) e.
Proof.
  unfold close. destruct (nth_error (s_fds s) fd) as [[f|]|]; eexists; (split; [|destruct s; reflexivity]); reflexivity.
Qed.

Lemma unref_ok s i q : common s zero -> alive s i q 1 -> (i_refs q = 1 -> forall sid, s_stack s <> [FEnd sid false]) ->
  exists s', unref_inst s i = Ok s' /\ inv s'.
Proof.
  intros C A F. unfold unref_inst. rewrite (get_live _ _ _ (al_live _ _ _ _ A)). cbn [bind].
  rewrite (put_inst_live _ _ _ _ (al_live _ _ _ _ A)). cbn [bind].
  pose proof (alive_refs _ _ _ _ (-1) A) as A'. change (i_refs q + -1) with (i_refs q - 1) in A'.
  pose proof (common_insts _ _ _ _ (set_refs q (i_refs q - 1)) (al_live _ _ _ _ A) C) as C'.
  set (s1 := set_insts s (upd (s_insts s) i (Some (set_refs q (i_refs q - 1))))) in *.
  assert (R : i_refs q = nlive (s_watches s) + loops (s_stack s) + 1) by apply (al_refs _ _ _ _ A).
  pose proof (nlive_nonneg (s_watches s)) as NN.
  destruct (Z.eqb_spec (i_refs q - 1) 0) as [Z0|Z0].
  2: { eexists. split; [reflexivity|]. split; auto. right. right. exists i. eexists. split; [exact A'|]. cbn.
       assert (0 <= loops (s_stack s)); [|lia]. clear. induction (s_stack s) as [|f k IH]; cbn [loops]; [lia|]. destruct f; lia. }
  assert (exists s2, (if Nat.eqb (i_src q) 0 then s1 else remove_source s1 (i_src q)) = s2 /\ common s2 zero /\
    s_var s2 = Some i /\ s_insts s2 = s_insts s1 /\ s_watches s2 = s_watches s /\ s_srcs s2 = [] /\
    (s_stack s2 = [] \/ exists sid ok, s_stack s2 = [FEnd sid ok]) /\ follows (s_trace s2) Idle) as (s2 & -> & C2 & V2 & I2 & W2 & S2 & K2 & T2).
  { pose proof (al_phase _ _ _ _ A') as P. pose proof (al_tale _ _ _ _ A') as T.
    cbn [s1 set_insts set_refs s_stack s_srcs i_src s_trace i_buf s_nid] in P, T.
    pose proof (al_var _ _ _ _ A') as V. pose proof (al_w _ _ _ _ A') as W.
    inversion P as [sid Hs E1 E2 E3|E1 E2 E3|sid Hs E1 E2 E3|sid Hs E1 E2 E3|sid o n Hs E1 E2 E3|sid w wd m c p la mx o n Hs E1 E2 E3|sid w id wd m c p la mx o n Hs E1 E2 E3]; subst.
    - rewrite <- E1 in *. cbn [tale] in T. destruct (Nat.eqb_spec (i_src q) 0); [congruence|]. unfold remove_source, source. cbn [s1 set_insts s_srcs]. rewrite <- E2. cbn [find fst]. rewrite Nat.eqb_refl.
      eexists. split; [reflexivity|]. split; [apply common_emit; [reflexivity|]; eapply common_same; [..|exact C']; reflexivity|].
      cbn. rewrite Nat.eqb_refl. cbn. repeat split; auto. apply fo_other; auto.
    - rewrite <- E1 in *. cbn [tale] in T. cbn [Nat.eqb]. exists s1. repeat split; auto; apply C'.
    - rewrite <- E1 in *. cbn [tale] in T. destruct (Nat.eqb_spec (i_src q) 0); [congruence|]. unfold remove_source, source. cbn [s1 set_insts s_srcs]. rewrite <- E2. cbn [find fst]. rewrite Nat.eqb_refl.
      eexists. split; [reflexivity|]. split; [apply common_emit; [reflexivity|]; eapply common_same; [..|exact C']; reflexivity|].
      cbn. rewrite Nat.eqb_refl. cbn. repeat split; eauto. apply fo_other; auto.
    - exfalso. apply (F ltac:(lia) sid). auto.
    - exfalso. rewrite <- E1 in R. cbn [loops] in R. lia.
    - exfalso. rewrite <- E1 in R. cbn [loops] in R. lia.
    - exfalso. rewrite <- E1 in R. cbn [loops] in R. lia. }
  destruct (close_inv s2 (i_fd q)) as (e & Ne & ->).
  assert (L2 : loops (s_stack s2) = 0) by (destruct K2 as [->|(sid & ok & ->)]; reflexivity).
  eexists. split; [reflexivity|]. split.
  - eapply common_same; [..|apply common_emit; [exact Ne|]; eapply common_same; [..|exact C2]]; try reflexivity.
  - right. left. exists i, (set_refs q (i_refs q - 1)). unfold closing. cbn. rewrite I2, W2, S2. repeat split; auto.
    + apply (al_live _ _ _ _ A').
    + apply (al_one _ _ _ _ A').
    + assert (0 <= loops (s_stack s)); [|lia]. clear. induction (s_stack s) as [|f k IH]; cbn [loops]; [lia|]. destruct f; lia.
    + destruct K2 as [->|(sid & ok & ->)]; eauto.
    + apply follows_neutral; auto.
Qed.
