(* Invariants of logging while log functions do things *)
From Coq Require Import String Ascii List Sorted.
From Coq Require Import ZifyBool.
From Verif Require Import Base HexModel HexSpec HexProofs HexProps LogModel LogSpec LogProofs LogProofs2 LogProofs3 LogProps DescModel DefinedProps ReportModel ReportSpec ReportProofs.
Import ListNotations.
Open Scope Z_scope.

Lemma run_snoc fuel d isp : forall ls s l s', run fuel d isp s (ls ++ [l]) = Some (Ok s') <-> exists s1, run fuel d isp s ls = Some (Ok s1) /\ step fuel d isp l s1 = Some (Ok s').
Proof.
  induction ls as [|a ls IH]; intros s l s'; cbn [app run].
  - split; [|intros (s1 & K & E); injection K as <-; rewrite E; reflexivity]. destruct (step fuel d isp l s) as [[s1|]|] eqn:St; intros K; try discriminate. injection K as <-. eauto.
  - destruct (step fuel d isp a s) as [[s1|]|]; [apply IH| |]; (split; [discriminate|intros (x & K & _); discriminate]).
Qed.

Lemma run_ind fuel d isp s0 (P : list label -> state -> Prop) : P [] s0 ->
  (forall ls s l s', run fuel d isp s0 ls = Some (Ok s) -> P ls s -> step fuel d isp l s = Some (Ok s') -> P (ls ++ [l]) s') ->
  forall ls s, run fuel d isp s0 ls = Some (Ok s) -> P ls s.
Proof.
  intros H0 HS ls. induction ls as [|l ls IH] using rev_ind; intros s E; [injection E as <-; auto|]. apply run_snoc in E. destruct E as (s1 & E & St). eauto.
Qed.

(* ---------------- configuration, memory and time ---------------- *)

Definition basic (c0 : conf) (m0 : memory) (ls : list label) (s : state) : Prop :=
  r_conf s = conf_at c0 ls /\ r_mem s = mem_at m0 ls /\ r_time s = length ls /\ (forall t e, In (t, e) (r_trace s) -> (t < length ls)%nat) /\ exists x, nth_error (c_mods (r_conf s)) 0 = Some x.

Lemma conf_step_head c l x : nth_error (c_mods c) 0 = Some x -> exists y, nth_error (c_mods (conf_step c l)) 0 = Some y.
Proof. intros H. destruct l; cbn; eauto. destruct (c_mods c); [discriminate|]. destruct m; cbn; eauto. Qed.

Lemma basic_run fuel d isp c0 m0 x0 ls s : nth_error (c_mods c0) 0 = Some x0 -> run fuel d isp (r_start c0 m0) ls = Some (Ok s) -> basic c0 m0 ls s.
Proof.
  intros E0. apply (run_ind fuel d isp (r_start c0 m0) (basic c0 m0)); clear ls s.
  - unfold basic. cbn. repeat split; [intros t e K; contradiction|eauto].
  - intros ls s l s' _ (Hc & Hm & Ht & Htr & x & Ex) St. destruct (step_effect fuel d isp l s s' x Ex St) as (evs & js & ids & _ & (A1 & A2 & _ & _ & A5 & A6)).
    unfold basic. unfold conf_at, mem_at. rewrite !fold_left_app. cbn [fold_left]. fold (conf_at c0 ls) (mem_at m0 ls). rewrite A1, A2, A5, A6, Hc, Hm, Ht, app_length. cbn [length].
    repeat split; [lia| |rewrite <- Hc; eapply conf_step_head; eauto].
    intros t e K. apply in_app_or in K. destruct K as [K|K]; [apply in_map_iff in K; destruct K as (e' & K & _); injection K as <- <-; lia|apply Htr in K; lia].
Qed.

Lemma upd_all (P : Z -> Prop) x i v : Forall P x -> P v -> Forall P (upd x i v).
Proof. revert i. induction x as [|a x IH]; intros [|i] H Hv; cbn; auto; inversion H; subst; constructor; auto. Qed.

Lemma mem_all (P : Z -> Prop) m0 ls : (forall b x, nth_error m0 b = Some (Some x) -> Forall P x) -> (forall b i v, In (LPoke b i v) ls -> P v) -> forall b data, nth_error (mem_at m0 ls) b = Some (Some data) ->
  exists x, nth_error m0 b = Some (Some x) /\ len data = len x /\ Forall P data.
Proof.
  intros B0 Bp. induction ls as [|l ls IH] using rev_ind; intros b data E.
  - cbn in E. exists data. repeat split; auto. eapply B0; eauto.
  - assert (forall b i v, In (LPoke b i v) ls -> P v) as Bp' by (intros b' i v K; apply (Bp b' i v); apply in_or_app; auto). specialize (IH Bp').
    unfold mem_at in E. rewrite fold_left_app in E. cbn [fold_left] in E. fold (mem_at m0 ls) in E. destruct l; cbn [mem_step] in E; auto.
    + destruct (nth_error (mem_at m0 ls) b0) as [[x|]|] eqn:Eb; auto. destruct (Nat.eq_dec b0 b) as [->|N].
      * rewrite nth_error_upd_eq in E by (apply nth_error_Some; congruence). injection E as <-. destruct (IH b x Eb) as (y & Ey & Ly & Hb). exists y. split; auto.
        split; [unfold len in *; rewrite upd_length; auto|]. apply upd_all; auto. apply (Bp b i v). apply in_or_app. right. left. auto.
      * rewrite nth_error_upd_ne in E by auto. auto.
    + destruct (Nat.eq_dec b0 b) as [->|N].
      * destruct (nth_error (mem_at m0 ls) b) eqn:Eb; [rewrite nth_error_upd_eq in E by (apply nth_error_Some; congruence); discriminate|].
        apply nth_error_None in Eb. assert (nth_error (upd (mem_at m0 ls) b None) b = None) by (apply nth_error_None; rewrite upd_length; auto). congruence.
      * rewrite nth_error_upd_ne in E by auto. auto.
Qed.

Lemma mem_block m0 ls : bytes_only m0 ls -> forall b data, nth_error (mem_at m0 ls) b = Some (Some data) ->
  exists x, nth_error m0 b = Some (Some x) /\ len data = len x /\ Forall is_byte data.
Proof. intros (B0 & Bp). apply mem_all; auto. Qed.

(* ---------------- events ---------------- *)

Definition calls_only (r : list event) : Prop := Forall (fun e => exists o, e = ECall o) r.
Lemma handled_calls c m lv text r : handled c m lv text r -> calls_only r.
Proof. intros [(o & _ & ->)|(_ & ->)]; repeat constructor. eauto. Qed.

Lemma calls_lines id T r : calls_only r -> lines_of id (map (pair T) r) = [].
Proof. induction 1 as [|e r (o & ->) H IH]; cbn; auto. Qed.

Lemma lines_app id a b : lines_of id (a ++ b) = lines_of id a ++ lines_of id b.
Proof. unfold lines_of. apply flat_map_app. Qed.

Lemma in_new (T : nat) r (e0 : event) tr t (e : event) : calls_only r -> In (t, e) (map (pair T) (r ++ [e0]) ++ tr) -> (t = T /\ ((exists o, e = ECall o) \/ e = e0)) \/ In (t, e) tr.
Proof.
  intros C K. apply in_app_or in K. destruct K as [K|K]; [left|auto]. apply in_map_iff in K. destruct K as (e' & K & I). injection K as <- <-. split; auto. apply in_app_or in I. destruct I as [I|[I|[]]]; [|auto].
  left. unfold calls_only in C. rewrite Forall_forall in C. auto.
Qed.

(* ---------------- a line ---------------- *)

Lemma line_shown d isp data off size p consumed buf line : Forall is_byte data -> isp 0 = false -> 0 <= off -> 0 < size -> off + size <= len data -> off + size < 2 ^ 32 ->
  hexdump d isp (malloc 70) (skipn (Z.to_nat off) data) (u32 size) = Ok (consumed, buf) -> cstr buf = Ok line ->
  consumed = Z.min size 16 /\
  shown (fun b => isp (if b <? 128 then b else b - 256)) p off (slice data off (Z.min (off + 16) (off + size))) (p ++ fmt_X 8 4 off [] ++ [58; 32] ++ line).
Proof.
  intros Hb Hi Ho Hs Hl H32 E C. rewrite u32_id in E by (unfold in_u32; lia).
  set (k := Z.to_nat (Z.min size 16)) in *. set (rest := skipn (Z.to_nat off) data) in *.
  assert (len rest = len data - off) as Lr by (unfold rest, len in *; rewrite skipn_length; lia).
  rewrite <- (firstn_skipn k rest) in E.
  destruct (C28_defined d isp (malloc 70) (firstn k rest) size (skipn k rest) (consumed, buf)) as (Er & _); auto.
  - rewrite firstn_skipn. apply Forall_skipn. auto.
  - rewrite malloc_length; lia.
  - lia.
  - unfold len in *. rewrite firstn_length. unfold k. lia.
  - injection Er as -> ->. split; auto. exists (fmt_X 8 4 off []). split; [apply fmt_04X; lia|]. do 2 f_equal. change (chars ": ") with [58; 32]. f_equal.
    unfold slice. fold rest. replace (Z.to_nat (Z.min (off + 16) (off + size) - off)) with k by (unfold k; lia).
    rewrite cstr_text in C; [congruence|]. apply dump_line_nz; [|exact Hi]. apply Forall_firstn, Forall_skipn. auto.
Qed.
