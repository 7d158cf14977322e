(* Nested dumps, and clients which do not make the library fail *)
From Coq Require Import String Ascii List Sorted.
From Coq Require Import ZifyBool.
From Verif Require Import Base HexModel HexSpec LogModel LogSpec LogProofs LogProofs2 LogProofs3 LogProps ReportModel ReportSpec ReportProofs ReportProofs2 ReportProofs3.
Import ListNotations.
Open Scope Z_scope.

(* ---------------- nested dumps ---------------- *)

Definition of_dump (i : nat) (e : event) : Prop := (exists m lv text, e = EMsg (Some i) m lv text) \/ e = EDone i.

Definition nested (tr : list (nat * event)) : Prop :=
  forall j tj m lv p b n i t e, In (tj, EDump j m lv p b n true) tr -> (i < j)%nat -> In (t, e) tr -> of_dump i e -> (tj < t)%nat -> exists td, In (td, EDone j) tr /\ (tj < td < t)%nat.

Lemma nested_add isp m0 ls tr js ids evs : (forall t e, In (t, e) tr -> (t < length ls)%nat) -> inv isp m0 ls tr js ids -> nested tr ->
  (forall e i, In e evs -> of_dump i e -> exists m lv q b off size rest, js = Job i m lv q b off size :: rest) ->
  nested (map (pair (length ls)) evs ++ tr).
Proof.
  intros Ht I N Hh j tj m lv p b n i t e Hd Lt He Ho Lt2. apply in_app_or in He. apply in_app_or in Hd. destruct Hd as [Hd|Hd].
  - exfalso. apply in_map_iff in Hd. destruct Hd as (e' & K & _). injection K as <- _. destruct He as [He|He]; [apply in_map_iff in He; destruct He as (e2 & K & _); injection K as <- _; lia|apply Ht in He; lia].
  - destruct He as [He|He].
    + apply in_map_iff in He. destruct He as (e2 & K & He). injection K as <- <-. destruct (Hh e2 i He Ho) as (m' & lv' & q & b' & off & size & rest & ->).
      destruct (i_told _ _ _ _ _ _ I _ _ _ _ _ _ _ Hd) as (_ & _ & [(o & sz & H & _)|(td & H1 & _ & H3 & _)]).
      * exfalso. pose proof (i_sorted _ _ _ _ _ _ I) as So. inversion So as [|? ? _ F]; subst. rewrite Forall_forall in F. destruct H as [H|H]; [injection H as -> _ _ _ _ _ _; lia|]. specialize (F _ H). cbn in F. lia.
      * exists td. split; [apply in_or_app; auto|]. apply Ht in H1. lia.
    + destruct (N j tj m lv p b n i t e Hd Lt He Ho Lt2) as (td & A & B). exists td. split; auto. apply in_or_app. auto.
Qed.

Lemma calls_no_dump r i e : calls_only r -> In e r -> of_dump i e -> False.
Proof. unfold calls_only. rewrite Forall_forall. intros C K [(m & lv & text & ->)| ->]; apply C in K; destruct K as (o & K); discriminate. Qed.

Lemma nested_run fuel d isp c0 m0 x0 ls s : nth_error (c_mods c0) 0 = Some x0 -> isp 0 = false -> run fuel d isp (r_start c0 m0) ls = Some (Ok s) -> bytes_only m0 ls -> nested (r_trace s).
Proof.
  intros E0 Hi. apply (run_ind fuel d isp (r_start c0 m0) (fun ls s => bytes_only m0 ls -> nested (r_trace s))); clear ls s.
  - intros _ j tj m lv p b n i t e K. contradiction.
  - intros ls s l s' R IH St Bo. specialize (IH (bytes_prefix _ _ _ Bo)). apply bytes_prefix in Bo. pose proof (inv_run _ _ _ _ _ _ _ _ E0 Hi R Bo) as I.
    destruct (basic_run _ _ _ _ _ _ _ _ E0 R) as (Hc & Hm & Ht & Htr & x & Ex).
    destruct (step_effect fuel d isp l s s' x Ex St) as (evs & js & ids & Ef & (A1 & A2 & A3 & A4 & A5 & A6)). rewrite A6, Ht. eapply nested_add; eauto.
    intros e i He Ho. inversion Ef; subst.
    + contradiction.
    + apply in_app_or in He. destruct He as [He|[<-|[]]]; [exfalso; eapply calls_no_dump; eauto using handled_calls|]. destruct Ho as [(? & ? & ? & K)|K]; discriminate.
    + destruct He as [<-|[]]. destruct Ho as [(? & ? & ? & K)|K]; discriminate.
    + apply in_app_or in He. destruct He as [He|[<-|[]]]; [exfalso; eapply calls_no_dump; eauto using handled_calls|]. destruct Ho as [(? & ? & ? & K)|K]; [|discriminate]. injection K as <- _ _ _. do 7 eexists. eauto.
    + destruct He as [<-|[]]. destruct Ho as [(? & ? & ? & K)|K]; [discriminate|]. injection K as <-. do 7 eexists. eauto.
Qed.

(* numbers of dumps rise with time *)
Lemma ids_rise fuel d isp c0 m0 x0 ls s : nth_error (c_mods c0) 0 = Some x0 -> isp 0 = false -> bytes_only m0 ls -> run fuel d isp (r_start c0 m0) ls = Some (Ok s) ->
  forall i j ti tj mi lvi pi bi ni oi mj lvj pj bj nj oj, In (ti, EDump i mi lvi pi bi ni oi) (r_trace s) -> In (tj, EDump j mj lvj pj bj nj oj) (r_trace s) -> (ti < tj)%nat -> (i < j)%nat.
Proof.
  intros E0 Hi Bo R. revert R Bo. apply (run_ind fuel d isp (r_start c0 m0) (fun ls s => bytes_only m0 ls -> forall i j ti tj mi lvi pi bi ni oi mj lvj pj bj nj oj,
    In (ti, EDump i mi lvi pi bi ni oi) (r_trace s) -> In (tj, EDump j mj lvj pj bj nj oj) (r_trace s) -> (ti < tj)%nat -> (i < j)%nat)); clear ls s.
  - intros. contradiction.
  - intros ls s l s' R IH St Bo. apply bytes_prefix in Bo. specialize (IH Bo). pose proof (inv_run _ _ _ _ _ _ _ _ E0 Hi R Bo) as I.
    destruct (basic_run _ _ _ _ _ _ _ _ E0 R) as (Hc & Hm & Ht & Htr & x & Ex).
    destruct (step_effect fuel d isp l s s' x Ex St) as (evs & js & ids & Ef & (A1 & A2 & A3 & A4 & A5 & A6)). rewrite A6, Ht.
    intros i j ti tj mi lvi pi bi ni oi mj lvj pj bj nj oj Ki Kj Lt. apply in_app_or in Ki. apply in_app_or in Kj. destruct Ki as [Ki|Ki].
    + exfalso. apply in_map_iff in Ki. destruct Ki as (e & K & _). injection K as <- _. destruct Kj as [Kj|Kj]; [apply in_map_iff in Kj; destruct Kj as (e2 & K & _); injection K as <- _; lia|apply Htr in Kj; lia].
    + destruct Kj as [Kj|Kj]; [|eapply IH; eauto]. pose proof (i_ids _ _ _ _ _ _ I _ _ _ _ _ _ _ _ Ki). apply in_map_iff in Kj. destruct Kj as (e & K & Ke). injection K as _ ->. inversion Ef; subst.
      * contradiction.
      * apply in_app_or in Ke. destruct Ke as [Ke|[Ke|[]]]; [|discriminate]. pose proof (handled_calls _ _ _ _ _ H1) as C. unfold calls_only in C. rewrite Forall_forall in C. destruct (C _ Ke). discriminate.
      * destruct Ke as [Ke|[]]. injection Ke as <- _ _ _ _ _ _. auto.
      * apply in_app_or in Ke. destruct Ke as [Ke|[Ke|[]]]; [|discriminate].
        match goal with H : handled _ _ _ _ _ |- _ => pose proof (handled_calls _ _ _ _ _ H) as C end. unfold calls_only in C. rewrite Forall_forall in C. destruct (C _ Ke). discriminate.
      * destruct Ke as [Ke|[]]. discriminate.
Qed.

(* ---------------- messages of each label ---------------- *)

Lemma at_time_new T evs tr : (forall t e, In (t, e) tr -> (t < T)%nat) -> at_time T (map (pair T) evs ++ tr) = evs.
Proof.
  intros H. unfold at_time. rewrite filter_app, map_app.
  assert (filter (fun e : nat * event => Nat.eqb (fst e) T) tr = []) as ->.
  { clear evs. induction tr as [|(t, e) tr IH]; auto. cbn. assert (t < T)%nat by (apply (H t e); left; auto). destruct (Nat.eqb_spec t T); [lia|]. apply IH. intros t' e' K. apply (H t' e'). right. auto. }
  rewrite app_nil_r. induction evs as [|e evs IH]; auto. cbn. rewrite Nat.eqb_refl. cbn. f_equal. auto.
Qed.
Lemma at_time_old t T evs tr : (t < T)%nat -> at_time t (map (pair T) evs ++ tr) = at_time t tr.
Proof.
  intros H. unfold at_time. rewrite filter_app, map_app. assert (filter (fun e : nat * event => Nat.eqb (fst e) t) (map (pair T) evs) = []) as ->; auto.
  induction evs as [|e evs IH]; auto. cbn. destruct (Nat.eqb_spec T t); [lia|]. auto.
Qed.

(* ---------------- careful clients ---------------- *)

Lemma wanted_dec lv v : wanted lv v \/ ~ wanted lv v.
Proof. destruct (passes lv v) eqn:E; [left; apply passes_wanted; auto|right; intros K; apply passes_wanted in K; congruence]. Qed.

Lemma settled_enabled c m lv : settled c m -> exists b, eventually (fun n => enabled n c m lv) b.
Proof.
  intros (x & d & Ex & (x0 & E0 & <-) & H). replace (fun n => enabled n c m lv) with (fun n => enabled n c (Some (dest m)) lv) by (destruct m; reflexivity).
  destruct (c_func2 c) as [p|] eqn:F; [|exists false, 0%nat; intros; unfold enabled; rewrite F; reflexivity].
  destruct H as [H|(v & H)].
  - exists false. apply (C63_silenced c x0 (dest m) lv [] E0 H).
  - destruct (wanted_dec lv v) as [W|W]; [exists true|exists false]; apply (C63_level c x0 p (dest m) v lv [] E0 F H); auto.
Qed.

Lemma settled_logv c m lv text : settled c m -> exists r, eventually (fun n => logv n c m lv text) r.
Proof.
  intros (x & d & Ex & (x0 & E0 & <-) & H).
  destruct (c_func2 c) as [p|] eqn:F; [|exists None, 0%nat; intros; unfold logv; rewrite F; reflexivity].
  destruct m as [k|].
  - cbn [dest] in *. destruct H as [H|(v & H)].
    + exists None. apply (C63_silenced c x0 k lv text E0 H).
    + destruct (C63_level c x0 p k v lv text E0 F H) as (A & B). destruct (wanted_dec lv v) as [W|W].
      * destruct (A W) as (_ & y & o & _ & _ & K). eauto.
      * destruct (B W) as (_ & K). eauto.
  - cbn [dest] in *. assert (x = x0) by congruence. subst x. unfold logv. rewrite F. unfold NONE. destruct (Z.eqb_spec lv 0); [exists None, 0%nat; auto|].
    assert (exists r, forall fuel, logv_r (S fuel) c None None lv text = Ok r) as (r & Hr).
    { cbn [logv_r]. unfold default_level. rewrite (the_mod_ok _ _ _ E0). cbn [bind]. destruct (passes lv (m_level x0)); [|exists None; auto]. rewrite F. destruct (m_proc x0) as [q|] eqn:Eq.
      - destruct (goes_call c 0 x0 lv text q E0 (or_introl Eq)) as (r & Er & _). rewrite Er. eauto.
      - destruct (goes_call c 0 x0 lv text p E0 (or_intror (conj Eq F))) as (r & Er & _). rewrite Er. eauto. }
    exists r, 1%nat. intros [|fuel] Hf; [lia|auto].
Qed.

(* the blocks being dumped are there *)
Definition alive (m0 : memory) (ls : list label) (tr : list (nat * event)) (js : list job) : Prop :=
  forall id m lv q b off size, In (Job id m lv q b off size) js -> (exists data, nth_error (mem_at m0 ls) b = Some (Some data)) /\
    forall t m' lv' p b' n, In (t, EDump id m' lv' p b' n true) tr -> inside m0 b n.

Lemma known_is_byte d m0 ls : known_bytes d m0 ls -> bytes_only m0 ls.
Proof.
  intros (A & B). split.
  - intros b x K. eapply Forall_impl; [|eapply A; eauto]. intros v (H & _). auto.
  - intros b i v K. apply (B b i v K).
Qed.

Lemma job_unfinished isp m0 ls tr js ids id m lv q b off size : inv isp m0 ls tr js ids -> In (Job id m lv q b off size) js -> unfinished tr m b.
Proof.
  intros I K. destruct (i_job _ _ _ _ _ _ I _ _ _ _ _ _ _ K) as (t & p & n & Hd & Eq). exists t, id, lv, p, n. split; auto.
  destruct (i_told _ _ _ _ _ _ I _ _ _ _ _ _ _ Hd) as (_ & _ & [(o & sz & _ & H & _)|(td & _ & _ & _ & _ & _ & H)]); auto. exfalso. apply (H _ K). auto.
Qed.

Lemma mem_at_snoc m0 ls l : mem_at m0 (ls ++ [l]) = mem_step (mem_at m0 ls) l.
Proof. unfold mem_at. rewrite fold_left_app. reflexivity. Qed.
Lemma conf_at_snoc c0 ls l : conf_at c0 (ls ++ [l]) = conf_step (conf_at c0 ls) l.
Proof. unfold conf_at. rewrite fold_left_app. reflexivity. Qed.

Lemma mem_live m l b data : (forall b0, l = LFree b0 -> b0 <> b) -> nth_error m b = Some (Some data) -> exists data', nth_error (mem_step m l) b = Some (Some data').
Proof.
  intros N E. destruct l; cbn [mem_step]; eauto.
  - destruct (nth_error m b0) as [[y|]|] eqn:Eb; eauto. destruct (Nat.eq_dec b0 b) as [->|Nb].
    + rewrite nth_error_upd_eq by (apply nth_error_Some; congruence). eauto.
    + rewrite nth_error_upd_ne by auto. eauto.
  - rewrite nth_error_upd_ne by (apply N; auto). eauto.
Qed.

Lemma alive_step isp d m0 c ls s l evs js ids : known_bytes d m0 ls -> r_mem s = mem_at m0 ls -> r_time s = length ls -> r_conf s = c ->
  inv isp m0 ls (r_trace s) (jobs (r_stack s)) (r_ids s) -> allowed c (mem_at m0 ls) (r_trace s) l -> effect d isp s l evs js ids ->
  alive m0 ls (r_trace s) (jobs (r_stack s)) -> alive m0 (ls ++ [l]) (map (pair (r_time s)) evs ++ r_trace s) js.
Proof.
  intros Kb Hm Ht Hc I Al Ef A.
  assert (NoNew : forall (r : list event) (e0 : event), calls_only r -> (forall id m lv p b n on, e0 <> EDump id m lv p b n on) -> forall t id m lv p b n on, In (t, EDump id m lv p b n on) (map (pair (r_time s)) (r ++ [e0]) ++ r_trace s) -> In (t, EDump id m lv p b n on) (r_trace s)).
  { intros r e0 C N t id m lv p b n on K. apply in_new in K; auto. destruct K as [(_ & [(o & K)|K])|K]; [discriminate|exfalso; eapply N; eauto|auto]. }
  assert (Live : forall id m lv q b off size, In (Job id m lv q b off size) (jobs (r_stack s)) -> exists data, nth_error (mem_at m0 (ls ++ [l])) b = Some (Some data)).
  { intros id m lv q b off size K. destruct (A _ _ _ _ _ _ _ K) as ((data & Ed) & _). rewrite mem_at_snoc. eapply mem_live; eauto. intros b0 -> ->. cbn in Al. eapply Al. eapply job_unfinished; eauto. }
  intros id m lv q b off size K. inversion Ef; subst.
  - split; [eapply Live; eauto|]. apply (A _ _ _ _ _ _ _ K).
  - split; [eapply Live; eauto|]. intros t m' lv' p b' n Hd. apply NoNew in Hd; [|eapply handled_calls; eauto|discriminate]. eapply (A _ _ _ _ _ _ _ K); eauto.
  - match goal with H : _ \/ _ |- _ => rename H into Hl end. cbn [map app].
    assert (Old : In (Job id m lv q b off size) (jobs (r_stack s)) -> (exists data, nth_error (mem_at m0 (ls ++ [l])) b = Some (Some data)) /\
      forall t m' lv' p' b' n', In (t, EDump id m' lv' p' b' n' true) ((r_time s, EDump (r_ids s) m1 lv0 p b0 n on) :: r_trace s) -> inside m0 b n').
    { intros K'. split; [eapply Live; eauto|]. intros t m' lv' p' b' n' [Hd|Hd]; [|eapply (A _ _ _ _ _ _ _ K'); eauto]. injection Hd as _ <- _ _ _ _ _ _.
      pose proof (i_below _ _ _ _ _ _ I) as B. rewrite Forall_forall in B. specialize (B _ K'). cbn in B. lia. }
    destruct on; [|auto]. destruct K as [K|K]; [|auto]. injection K as <- <- <- <- <- <- <-.
    assert (Hin : exists x, nth_error (mem_at m0 ls) b0 = Some (Some x) /\ 0 <= n <= len x /\ n < 2 ^ 32).
    { destruct Hl as [->|(-> & Hx)]; cbn in Al; destruct Al as (_ & Al); [exact Al|]. destruct Al as (x & Ex & y & Ey & Hn & H32). assert (y = x) by congruence. subst y. destruct (Hx eq_refl) as (z & Ez & ->).
      rewrite Hm in Ez. assert (z = x) by congruence. subst z. exists x. repeat split; auto; lia. }
    destruct Hin as (x & Ex & Hn & H32). split.
    + rewrite mem_at_snoc. eapply mem_live; eauto. intros b1 ->. destruct Hl as [Hl|(Hl & _)]; discriminate.
    + intros t m' lv' p' b' n' [Hd|Hd].
      * injection Hd as _ _ _ _ _ <-. destruct (mem_block m0 ls (known_is_byte _ _ _ Kb) b0 x Ex) as (y & Ey & Ly & _). exists y. split; auto. lia.
      * apply (i_ids _ _ _ _ _ _ I) in Hd. lia.
  - match goal with H : jobs (r_stack s) = _ |- _ => rename H into Ej end.
    assert (exists off' size', In (Job id m lv q b off' size') (jobs (r_stack s))) as (off' & size' & K').
    { rewrite Ej. destruct K as [K|K]; [injection K as <- <- <- <- <- _ _; do 2 eexists; left; reflexivity|do 2 eexists; right; eauto]. }
    split; [eapply Live; eauto|]. intros t m' lv' p' b' n' Hd. apply NoNew in Hd; [|eapply handled_calls; eauto|discriminate]. eapply (A _ _ _ _ _ _ _ K'); eauto.
  - match goal with H : jobs (r_stack s) = _ |- _ => rename H into Ej end.
    assert (In (Job id m lv q b off size) (jobs (r_stack s))) as K' by (rewrite Ej; right; auto).
    split; [eapply Live; eauto|]. cbn [map app]. intros t m' lv' p' b' n' [Hd|Hd]; [discriminate|]. eapply (A _ _ _ _ _ _ _ K'); eauto.
Qed.

Lemma known_prefix d m0 ls l : known_bytes d m0 (ls ++ [l]) -> known_bytes d m0 ls.
Proof. intros (A & B). split; auto. intros b i v K. apply (B b i v). apply in_or_app. auto. Qed.

Lemma careful_prefix d isp c0 m0 ls l : careful d isp c0 m0 (ls ++ [l]) -> careful d isp c0 m0 ls.
Proof. intros C l1 k l2 fuel s -> R. apply (C l1 k (l2 ++ [l]) fuel s); auto. rewrite <- app_assoc. reflexivity. Qed.

Lemma alive_run fuel d isp c0 m0 x0 ls s : nth_error (c_mods c0) 0 = Some x0 -> isp 0 = false -> run fuel d isp (r_start c0 m0) ls = Some (Ok s) -> known_bytes d m0 ls -> careful d isp c0 m0 ls ->
  alive m0 ls (r_trace s) (jobs (r_stack s)).
Proof.
  intros E0 Hi. apply (run_ind fuel d isp (r_start c0 m0) (fun ls s => known_bytes d m0 ls -> careful d isp c0 m0 ls -> alive m0 ls (r_trace s) (jobs (r_stack s)))); clear ls s.
  - intros _ _ id m lv q b off size K. contradiction.
  - intros ls s l s' R IH St Kb Ca. pose proof (Ca ls l [] fuel s eq_refl R) as Al. apply careful_prefix in Ca. apply known_prefix in Kb. specialize (IH Kb Ca).
    pose proof (inv_run _ _ _ _ _ _ _ _ E0 Hi R (known_is_byte _ _ _ Kb)) as I. destruct (basic_run _ _ _ _ _ _ _ _ E0 R) as (Hc & Hm & Ht & Htr & x & Ex).
    destruct (step_effect fuel d isp l s s' x Ex St) as (evs & js & ids & Ef & (A1 & A2 & A3 & A4 & A5 & A6)). rewrite A3, A6. eapply alive_step; eauto.
Qed.

Definition fine {A} (r : option (res A)) : Prop := r = None \/ exists a, r = Some (Ok a).

Lemma message_ok s i m lv text : settled (r_conf s) m -> exists r N, forall fuel, (N <= fuel)%nat -> message fuel s i m lv text = Ok r.
Proof. intros H. destruct (settled_logv _ m lv text H) as (o & N & K). eexists. exists N. intros fuel Hf. unfold message. rewrite (K fuel Hf). cbn [bind]. reflexivity. Qed.

Lemma step_fine d isp c m0 ls s l : isp 0 = false -> known_bytes d m0 ls -> r_mem s = mem_at m0 ls -> r_conf s = c -> inv isp m0 ls (r_trace s) (jobs (r_stack s)) (r_ids s) ->
  alive m0 ls (r_trace s) (jobs (r_stack s)) -> allowed c (mem_at m0 ls) (r_trace s) l -> exists r N, fine r /\ forall fuel, (N <= fuel)%nat -> step fuel d isp l s = r.
Proof.
  intros Hi Kb Hm Hc I A Al. assert (None_ : (forall fuel, act fuel d isp l s = None) -> exists r N, fine r /\ forall fuel, (N <= fuel)%nat -> step fuel d isp l s = r).
  { intros H. exists None, 0%nat. split; [left; auto|]. intros fuel _. unfold step. rewrite H. auto. }
  assert (Some_ : (exists s' N, forall fuel, (N <= fuel)%nat -> act fuel d isp l s = Some (Ok s')) -> exists r N, fine r /\ forall fuel, (N <= fuel)%nat -> step fuel d isp l s = r).
  { intros (s' & N & H). exists (Some (Ok (tick s'))), N. split; [right; eauto|]. intros fuel Hf. unfold step. rewrite H by auto. reflexivity. }
  assert (Say : forall m lv text, settled c m -> exists s' N, forall fuel, (N <= fuel)%nat -> say fuel s m lv text = Ok s').
  { intros m lv text H. rewrite <- Hc in H. destruct (message_ok s None m lv text H) as ((s1, rn) & N & K). eexists. exists N. intros fuel Hf. unfold say. rewrite K by auto. cbn [bind]. reflexivity. }
  destruct l as [m lv text|m lv e f n|m lv p b n|m lv p [b|]|m x|f|p|b i v|b| |].
  - destruct (in_control s) eqn:Ic; [apply Some_|apply None_; intros; cbn [act]; rewrite Ic; auto]. destruct (Say m lv text Al) as (s' & N & K). exists s', N. intros fuel Hf. cbn [act]. rewrite Ic, K; auto.
  - destruct (in_control s) eqn:Ic; [apply Some_|apply None_; intros; cbn [act]; rewrite Ic; auto]. destruct (Say m lv (assert_message e f n) Al) as (s' & N & K). exists s', N. intros fuel Hf. cbn [act]. rewrite Ic, K; auto.
  - destruct (in_control s) eqn:Ic; [apply Some_|apply None_; intros; cbn [act]; rewrite Ic; auto]. destruct Al as (Al & _). rewrite <- Hc in Al. destruct (settled_enabled _ m lv Al) as (on & N & K).
    eexists. exists N. intros fuel Hf. cbn [act]. rewrite Ic. unfold begin_dump. rewrite K by auto. cbn [bind]. reflexivity.
  - destruct (in_control s) eqn:Ic; [apply Some_|apply None_; intros; cbn [act]; rewrite Ic; auto]. destruct Al as (Al & x & Ex & _). rewrite <- Hc in Al. destruct (settled_enabled _ m lv Al) as (on & N & K).
    eexists. exists N. intros fuel Hf. cbn [act]. rewrite Ic. unfold begin_dump. rewrite K by auto. cbn [bind]. unfold the_block. rewrite Hm, Ex. cbn [bind].
    assert ((if on then Ok (len x) else Ok 0) = Ok (if on then len x else 0)) as -> by (destruct on; auto). cbn [bind]. reflexivity.
  - destruct (in_control s) eqn:Ic; [apply Some_|apply None_; intros; cbn [act]; rewrite Ic; auto]. exists s, 0%nat. intros. cbn [act]. rewrite Ic. auto.
  - destruct (in_control s) eqn:Ic; [|apply None_; intros; cbn [act]; rewrite Ic; auto]. destruct (m <? length (c_mods (r_conf s)))%nat eqn:E; [apply Some_|apply None_; intros; cbn [act]; rewrite Ic, E; auto].
    eexists. exists 0%nat. intros. cbn [act]. rewrite Ic, E. reflexivity.
  - destruct (in_control s) eqn:Ic; [apply Some_|apply None_; intros; cbn [act]; rewrite Ic; auto]. eexists. exists 0%nat. intros. cbn [act]. rewrite Ic. reflexivity.
  - destruct (in_control s) eqn:Ic; [apply Some_|apply None_; intros; cbn [act]; rewrite Ic; auto]. eexists. exists 0%nat. intros. cbn [act]. rewrite Ic. reflexivity.
  - destruct (act 0 d isp (LPoke b i v) s) as [r|] eqn:E; [|apply None_; intros; exact E]. apply Some_. assert (exists s', r = Ok s') as (s' & ->).
    { cbn in E. destruct (in_control s); [|discriminate]. destruct (nth_error (r_mem s) b) as [[y|]|]; try discriminate. destruct ((0 <=? i) && (i <? len y)); [|discriminate]. injection E as <-. eauto. }
    exists s', 0%nat. intros. exact E.
  - destruct (act 0 d isp (LFree b) s) as [r|] eqn:E; [|apply None_; intros; exact E]. apply Some_. assert (exists s', r = Ok s') as (s' & ->).
    { cbn in E. destruct (in_control s); [|discriminate]. destruct (nth_error (r_mem s) b) as [[y|]|]; try discriminate. injection E as <-. eauto. }
    exists s', 0%nat. intros. exact E.
  - destruct (act 0 d isp LReturn s) as [r|] eqn:E; [|apply None_; intros; exact E]. apply Some_. assert (exists s', r = Ok s') as (s' & ->).
    { cbn in E. destruct (r_stack s) as [|[|id [|] m lv p b off size] rest]; try discriminate; injection E as <-; eauto. }
    exists s', 0%nat. intros. exact E.
  - destruct (r_stack s) as [|[|id [|] m lv p b off size] rest] eqn:Es; [apply None_; intros; cbn; rewrite Es; auto..|]. apply Some_.
    assert (Kj : In (Job id m lv p b off size) (jobs (r_stack s))) by (rewrite Es; left; auto). rewrite <- Es in *.
    pose proof (job_unfinished _ _ _ _ _ _ _ _ _ _ _ _ _ I Kj) as Un. specialize (Al m b Un). rewrite <- Hc in Al.
    destruct (A _ _ _ _ _ _ _ Kj) as ((data & Ed) & Hin). destruct (i_job _ _ _ _ _ _ I _ _ _ _ _ _ _ Kj) as (t & q & n & Hd & Eq). pose proof (Hin _ _ _ _ _ _ Hd) as Hn.
    destruct (i_told _ _ _ _ _ _ I _ _ _ _ _ _ _ Hd) as (_ & _ & [(off' & size' & H1 & H2 & H3)|(td & _ & _ & _ & _ & _ & H6)]); [|exfalso; apply (H6 _ Kj); auto].
    assert (Job id m lv (prefix_text q) b off' size' = Job id m lv p b off size) as E.
    { pose proof (i_sorted _ _ _ _ _ _ I) as So. rewrite Es in So, H1. cbn in So, H1. exact (head_only _ (Job id m lv p b off size) (jobs rest) _ So eq_refl H1 eq_refl). }
    injection E as _ -> ->. destruct (H3 Hn) as (E1 & E2). destruct Hn as (x0 & Ex0 & Hn & H32). pose proof (len_nonneg (lines_of id (r_trace s))).
    destruct Kb as (Kb1 & Kb2). destruct (mem_all (known_byte d) m0 ls Kb1 Kb2 b data Ed) as (y & Ey & Ly & Hb). assert (y = x0) by congruence. subst y.
    cbn [act]. rewrite Es. unfold turn. destruct (Z.gtb_spec size 0) as [G|G]; [|eexists; exists 0%nat; intros; reflexivity].
    unfold the_block. rewrite Hm, Ed. cbn [bind]. rewrite u32_id by (unfold in_u32; lia).
    destruct (dump_turn d isp data off size) as (buf & Eh & Ec); auto; try lia.
    { eapply Forall_impl; [|exact Hb]. intros v (V & _). auto. }
    { unfold portable. destruct d; [|auto]. right. eapply Forall_impl; [|exact Hb]. intros v (_ & [V|V]); [discriminate|auto]. }
    rewrite Eh. cbn [bind]. rewrite Ec. cbn [bind].
    match goal with |- context [message _ s (Some id) m lv ?tx] => destruct (message_ok s (Some id) m lv tx Al) as ((s1, rn) & N & K) end.
    eexists. exists N. intros fuel Hf. rewrite K by auto. cbn [bind]. reflexivity.
Qed.

Lemma run_app fuel d isp : forall a b s, run fuel d isp s (a ++ b) = match run fuel d isp s a with Some (Ok s1) => run fuel d isp s1 b | r => r end.
Proof. induction a as [|l a IH]; intros b s; cbn [app run]; auto. destruct (step fuel d isp l s) as [[s1|]|]; auto. Qed.

Lemma run_fine d isp c0 m0 x0 : nth_error (c_mods c0) 0 = Some x0 -> isp 0 = false -> forall ls, known_bytes d m0 ls -> careful d isp c0 m0 ls ->
  exists r N, fine r /\ forall fuel, (N <= fuel)%nat -> run fuel d isp (r_start c0 m0) ls = r.
Proof.
  intros E0 Hi. induction ls as [|l ls IH] using rev_ind; intros Kb Ca; [eexists; exists 0%nat; split; [right; eauto|reflexivity]|].
  pose proof (known_prefix _ _ _ _ Kb) as Kb'. pose proof (careful_prefix _ _ _ _ _ _ Ca) as Ca'. destruct (IH Kb' Ca') as (r & N & Fr & R). destruct Fr as [->|(s & ->)].
  - exists None, N. split; [left; auto|]. intros fuel Hf. rewrite run_app, R by auto. auto.
  - pose proof (R N (le_n N)) as RN. pose proof (Ca ls l [] N s eq_refl RN) as Al.
    pose proof (inv_run _ _ _ _ _ _ _ _ E0 Hi RN (known_is_byte _ _ _ Kb')) as I. destruct (basic_run _ _ _ _ _ _ _ _ E0 RN) as (Hc & Hm & _).
    destruct (step_fine d isp _ m0 ls s l Hi Kb' Hm Hc I (alive_run _ _ _ _ _ _ _ _ E0 Hi RN Kb' Ca') Al) as (r & M & Fr & St).
    exists r, (Nat.max N M). split; auto. intros fuel Hf. rewrite run_app, R by lia. cbn [run]. rewrite St by lia. destruct Fr as [->|(s1 & ->)]; auto.
Qed.
