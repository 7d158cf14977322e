(* The property C103 *)
From Coq Require Import String Ascii List Sorted.
From Verif Require Import Base HexModel HexSpec LogModel LogSpec LogProps ReportModel ReportSpec ReportProofs ReportProofs2 ReportProofs3 ReportProofs4.
Import ListNotations.
Open Scope Z_scope.

(* For the examples: the default module, and "a" which has a log function of the client *)
Definition x_c : conf := Conf [LogMod None None None 3 0; LogMod (Some (chars "a")) None (Some (PClient 7)) 4 0] (Some FStdout) (Some PDefault).
Definition x_isp (c : Z) : bool := (32 <=? c) && (c <? 127).
Definition x_mem : memory := [Some (chars "Hello, world! 17+18."); Some (chars "abc")].
(* While the dump of the first block waits for its log function, the block is changed, the second one is dumped and a line logged. The module
   is disabled before the last line, and an assertion fails at the end. *)
Definition x_ls : list label :=
  [LDump (Some 1%nat) 4 (Some (chars ">")) 0 20; LGo; LPoke 0 18 90; LDumpBytes (Some 1%nat) 4 None (Some 1%nat); LGo; LReturn; LGo; LLog None 3 (chars "hi"); LReturn;
   LGo; LReturn; LGo; LDump (Some 1%nat) 3 None 0 17; LGo; LModule 1 (LogMod (Some (chars "a")) None (Some (PClient 7)) 4 2); LReturn; LGo; LGo;
   LDump (Some 1%nat) 3 None 0 17; LAssert None 1 (chars "x > 0") (chars "test.c") (-42)].
Definition x_end : state := Eval vm_compute in match run 3 Strict x_isp (r_start x_c x_mem) x_ls with Some (Ok s) => s | _ => r_start x_c x_mem end.

(* ---------------- messages ---------------- *)

(* Whatever log functions do, each message is handled at once, according to the configuration at that moment. A dump begins if messages of
   its level are enabled at that moment. Nothing else calls log functions. *)
Theorem C103_messages fuel d isp c0 m0 x0 ls s t l : nth_error (c_mods c0) 0 = Some x0 -> run fuel d isp (r_start c0 m0) ls = Some (Ok s) -> nth_error ls t = Some l ->
  happens (conf_at c0 (firstn t ls)) (mem_at m0 (firstn t ls)) l (at_time t (r_trace s)).
Proof.
  intros E0 R. revert t l. revert R. apply (run_ind fuel d isp (r_start c0 m0) (fun ls s => forall t l, nth_error ls t = Some l -> happens (conf_at c0 (firstn t ls)) (mem_at m0 (firstn t ls)) l (at_time t (r_trace s)))); clear ls s.
  - intros [|t] l E; discriminate.
  - intros ls s k s' R IH St t l E. destruct (basic_run _ _ _ _ _ _ _ _ E0 R) as (Hc & Hm & Ht & Htr & x & Ex).
    destruct (step_effect fuel d isp k s s' x Ex St) as (evs & js & ids & Ef & (A1 & A2 & A3 & A4 & A5 & A6)). rewrite A6, Ht.
    assert (Hlen : (t < S (length ls))%nat) by (assert (t < length (ls ++ [k]))%nat as K by (apply nth_error_Some; congruence); rewrite app_length in K; cbn in K; lia).
    destruct (Nat.eq_dec t (length ls)) as [->|N].
    + rewrite nth_error_app2, Nat.sub_diag in E by lia. injection E as <-. rewrite at_time_new by auto. rewrite firstn_app, firstn_all, Nat.sub_diag. cbn [firstn]. rewrite app_nil_r, <- Hc, <- Hm.
      unfold happens. inversion Ef; subst; clear Ef.
      * destruct k as [| | |m1 lv1 p1 [b1|]| | | | | | |]; unfold happens; auto; contradiction.
      * match goal with H : _ \/ _ |- _ => destruct H as [->|(e & f & n & -> & ->)] end; [eauto|]. intros Hn. exists (assert_message e f n), r. split; [apply assert_spec; auto|]. auto.
      * match goal with H : _ \/ _ |- _ => destruct H as [->|(-> & Hx)] end; eauto 8.
      * left. do 5 eexists. split; [reflexivity|]. auto.
      * right. eauto.
    + rewrite nth_error_app1 in E by lia. rewrite at_time_old by lia. rewrite firstn_app. replace (t - length ls)%nat with 0%nat by lia. cbn [firstn]. rewrite app_nil_r. apply (IH t l E).
Qed.
Print Assumptions C103_messages.

Example C103_example_messages : run 3 Strict x_isp (r_start x_c x_mem) x_ls = Some (Ok x_end) /\
  at_time 7 (r_trace x_end) = [ECall (OFunc FStdout None 3 (chars "hi")); EMsg None None 3 (chars "hi")] /\
  at_time 3 (r_trace x_end) = [EDump 1 (Some 1%nat) 4 None 1 3 true] /\ at_time 2 (r_trace x_end) = [] /\ at_time 18 (r_trace x_end) = [EDump 3 (Some 1%nat) 3 None 0 17 false] /\
  at_time 16 (r_trace x_end) = [EMsg (Some 2%nat) (Some 1%nat) 3 (chars "0010: 2b                                                  +")] /\
  at_time 19 (r_trace x_end) = [ECall (OFunc FStdout None 1 (chars "Assert x > 0 failed at test.c:-42")); EMsg None None 1 (chars "Assert x > 0 failed at test.c:-42")].
Proof. repeat split; vm_compute; reflexivity. Qed.

(* ---------------- dumps ---------------- *)

(* The lines of a dump, for any run and in whatever way dumps are nested: line k belongs to the bytes from 16 k on, as they are when the
   line is logged. The module and the level are those of the dump. There are no others before or after the dump, and when it is done all
   bytes have been shown. A dump which is not enabled at the beginning logs nothing. *)
Theorem C103_dump fuel d isp c0 m0 x0 ls s : nth_error (c_mods c0) 0 = Some x0 -> isp 0 = false -> bytes_only m0 ls -> run fuel d isp (r_start c0 m0) ls = Some (Ok s) ->
  (forall id t0 m lv p b n, In (t0, EDump id m lv p b n true) (r_trace s) ->
     (forall t1 m1 lv1 p1 b1 n1 on1, In (t1, EDump id m1 lv1 p1 b1 n1 on1) (r_trace s) -> t1 = t0) /\
     StronglySorted lt (map (fun x => fst (fst (fst x))) (rev (lines_of id (r_trace s)))) /\
     (forall k t m' lv' text, nth_error (rev (lines_of id (r_trace s))) k = Some (t, m', lv', text) ->
        (t0 < t)%nat /\ m' = m /\ lv' = lv /\ (forall td, In (td, EDone id) (r_trace s) -> (t < td)%nat) /\
        (inside m0 b n -> 16 * Z.of_nat k < n /\ exists data, nth_error (mem_at m0 (firstn t ls)) b = Some (Some data) /\
           shown (fun b => isp (if b <? 128 then b else b - 256)) (match p with Some p => p | None => [] end) (16 * Z.of_nat k) (slice data (16 * Z.of_nat k) (Z.min (16 * Z.of_nat k + 16) n)) text)) /\
     (forall td, In (td, EDone id) (r_trace s) -> (t0 < td)%nat /\ (forall td', In (td', EDone id) (r_trace s) -> td' = td) /\ (inside m0 b n -> n <= 16 * len (lines_of id (r_trace s)))) /\
     ((exists td, In (td, EDone id) (r_trace s)) \/ r_stack s <> [])) /\
  (forall id t0 m lv p b n, In (t0, EDump id m lv p b n false) (r_trace s) -> lines_of id (r_trace s) = [] /\ forall td, ~ In (td, EDone id) (r_trace s)) /\
  (forall id t m lv text, In (t, EMsg (Some id) m lv text) (r_trace s) -> exists t0 p b n, In (t0, EDump id m lv p b n true) (r_trace s)) /\
  (forall id t, In (t, EDone id) (r_trace s) -> exists t0 m lv p b n, In (t0, EDump id m lv p b n true) (r_trace s)).
Proof.
  intros E0 Hi Bo R. pose proof (inv_run _ _ _ _ _ _ _ _ E0 Hi R Bo) as I. split; [|split; [|split]].
  - intros id t0 m lv p b n Hd. destruct (i_told _ _ _ _ _ _ I _ _ _ _ _ _ _ Hd) as (T1 & T2 & T3). split; [|split; [|split; [|split]]].
    + intros t1 m1 lv1 p1 b1 n1 on1 K. pose proof (i_once _ _ _ _ _ _ I _ _ _ _ _ _ _ _ _ _ _ _ _ _ _ K Hd) as X. congruence.
    + exact T1.
    + intros k t m' lv' text E. destruct (T2 k t m' lv' text E) as (A & B & C & D). repeat split; auto; [|apply D; auto..]. intros td K.
      destruct T3 as [(off & size & _ & H2 & _)|(td1 & H1 & H2 & H3 & H4 & _)]; [exfalso; eapply H2; eauto|]. rewrite (H2 _ K). apply nth_error_In, in_rev in E. apply (H4 _ E).
    + intros td K. destruct T3 as [(off & size & _ & H2 & _)|(td1 & H1 & H2 & H3 & H4 & H5 & _)]; [exfalso; eapply H2; eauto|]. rewrite (H2 _ K). auto.
    + destruct T3 as [(off & size & H1 & _)|(td1 & H1 & _)]; [right|left; eauto]. intros X. rewrite X in H1. contradiction.
  - intros. eapply (i_off _ _ _ _ _ _ I); eauto.
  - intros id t m lv text K. apply line_in in K. destruct (i_from _ _ _ _ _ _ I id) as (t0 & m1 & lv1 & p & b & n & Hd); [left; intros X; rewrite X in K; contradiction|].
    destruct (i_told _ _ _ _ _ _ I _ _ _ _ _ _ _ Hd) as (_ & T2 & _). apply in_rev in K. apply In_nth_error in K. destruct K as (k & K). destruct (T2 _ _ _ _ _ K) as (_ & -> & -> & _). eauto.
  - intros id t K. apply (i_from _ _ _ _ _ _ I id). eauto.
Qed.
Print Assumptions C103_dump.

(* the second line shows the byte written by the log function of the first one, and the nested dump comes in between *)
Example C103_example_dump : run 3 Strict x_isp (r_start x_c x_mem) x_ls = Some (Ok x_end) /\ bytes_only x_mem x_ls /\ inside x_mem 0 20 /\
  In (0%nat, EDump 0 (Some 1%nat) 4 (Some (chars ">")) 0 20 true) (r_trace x_end) /\
  rev (lines_of 0 (r_trace x_end)) = [(1%nat, Some 1%nat, 4, chars ">0000: 48 65 6c 6c 6f 2c 20 77  6f 72 6c 64 21 20 31 37    Hello, w orld! 17"); (9%nat, Some 1%nat, 4, chars ">0010: 2b 31 5a 2e                                         +1Z.")] /\
  rev (lines_of 1 (r_trace x_end)) = [(4%nat, Some 1%nat, 4, chars "0000: 61 62 63                                            abc")] /\ In (6%nat, EDone 1) (r_trace x_end) /\ In (11%nat, EDone 0) (r_trace x_end).
Proof.
  split; [vm_compute; reflexivity|]. split; [split|].
  - intros [|[|[|b]]] x K; cbn in K; try discriminate; injection K as <-; repeat constructor; unfold is_byte; lia.
  - intros b i v K. cbn in K. repeat (destruct K as [K|K]; [try discriminate; injection K as <- <- <-; unfold is_byte; lia|]). contradiction.
  - split; [exists (chars "Hello, world! 17+18."); repeat split; cbn; lia|]. repeat split; try (vm_compute; reflexivity); vm_compute; tauto.
Qed.

(* ---------------- nested dumps ---------------- *)

(* A dump which a log function of another one begins is done before the other one goes on *)
Theorem C103_nested fuel d isp c0 m0 x0 ls s i j ti tj t e mi lvi pi bi ni mj lvj pj bj nj : nth_error (c_mods c0) 0 = Some x0 -> isp 0 = false -> bytes_only m0 ls -> run fuel d isp (r_start c0 m0) ls = Some (Ok s) ->
  In (ti, EDump i mi lvi pi bi ni true) (r_trace s) -> In (tj, EDump j mj lvj pj bj nj true) (r_trace s) -> (ti < tj < t)%nat -> In (t, e) (r_trace s) -> ((exists m lv text, e = EMsg (Some i) m lv text) \/ e = EDone i) ->
  exists td, In (td, EDone j) (r_trace s) /\ (tj < td < t)%nat.
Proof.
  intros E0 Hi Bo R Di Dj Lt He Ho. pose proof (inv_run _ _ _ _ _ _ _ _ E0 Hi R Bo) as I.
  assert (i < j)%nat by (eapply ids_rise; eauto; lia). eapply (nested_run _ _ _ _ _ _ _ _ E0 Hi R Bo); eauto. lia.
Qed.
Print Assumptions C103_nested.

Example C103_example_nested : run 3 Strict x_isp (r_start x_c x_mem) x_ls = Some (Ok x_end) /\ In (0%nat, EDump 0 (Some 1%nat) 4 (Some (chars ">")) 0 20 true) (r_trace x_end) /\
  In (3%nat, EDump 1 (Some 1%nat) 4 None 1 3 true) (r_trace x_end) /\ In (11%nat, EDone 0) (r_trace x_end).
Proof. split; [vm_compute; reflexivity|]. split; [vm_compute; tauto|]. split; vm_compute; tauto. Qed.

(* ---------------- careful clients ---------------- *)

(* Clients which do not free what is being dumped, and do not make modules inherit in a circle, may do anything else inside of their log
   functions. Missing: the others, see below. *)
Theorem C103_safe_partial d isp c0 m0 x0 ls : nth_error (c_mods c0) 0 = Some x0 -> isp 0 = false -> known_bytes d m0 ls -> careful d isp c0 m0 ls ->
  exists r N, (r = None \/ exists s, r = Some (Ok s)) /\ forall fuel, (N <= fuel)%nat -> run fuel d isp (r_start c0 m0) ls = r.
Proof. intros E0 Hi Kb Ca. apply (run_fine d isp c0 m0 x0 E0 Hi ls Kb Ca). Qed.
Print Assumptions C103_safe_partial.

Definition x_safe : list label := [LDumpBytes (Some 1%nat) 4 None (Some 1%nat); LGo; LPoke 1 0 90; LFree 0; LModule 1 (LogMod None None None (-1) 0); LLog (Some 1%nat) 3 (chars "hi"); LReturn; LGo; LFree 1].

Example C103_example_safe : known_bytes Strict x_mem x_safe /\ careful Strict x_isp x_c x_mem x_safe /\ exists s, run 3 Strict x_isp (r_start x_c x_mem) x_safe = Some (Ok s).
Proof.
  split; [split|split].
  - intros [|[|[|b]]] x K; cbn in K; try discriminate; injection K as <-; cbn [chars]; repeat (apply Forall_cons; [split; [unfold is_byte; cbn; lia|right; left; reflexivity]|]); apply Forall_nil.
  - intros b i v K. cbn in K. repeat (destruct K as [K|K]; [solve [discriminate K|injection K as <- <- <-; split; [unfold is_byte; lia|right; left; lia]]|]). contradiction.
  - assert (S1 : settled x_c (Some 1%nat)).
    { exists (LogMod (Some (chars "a")) None (Some (PClient 7)) 4 0), 3. split; [reflexivity|]. split; [eexists; split; reflexivity|]. right. exists 4, [], (LogMod (Some (chars "a")) None (Some (PClient 7)) 4 0), None.
      split; [apply (path_one (c_mods x_c) 1); reflexivity|]. split; [constructor|]. split; [constructor; [intros X; discriminate X|constructor]|]. left. split; [intros X; discriminate X|reflexivity]. }
    assert (S2 : settled (conf_at x_c (firstn 5 x_safe)) (Some 1%nat)).
    { exists (LogMod None None None (-1) 0), 3. split; [reflexivity|]. split; [eexists; split; reflexivity|]. right. exists 3, [], (LogMod None None None (-1) 0), None.
      split; [apply (path_one (c_mods (conf_at x_c (firstn 5 x_safe))) 1); reflexivity|]. split; [constructor|]. split; [constructor; [intros X; discriminate X|constructor]|]. right. repeat split. }
    intros l1 l l2 fuel s E R.
    destruct l1 as [|? l1]; [injection E as <- _; cbn; split; auto; exists (chars "abc"); split; [reflexivity|exists (chars "abc"); repeat split; cbn; lia]|]. injection E as <- E.
    destruct l1 as [|? l1]; [injection E as <- _; intros m b (t & id & lv & p & n & K & _); destruct fuel; [discriminate R|]; injection R as <-; destruct K as [K|[]]; injection K as _ _ <- _ _ _ _; exact S1|]. injection E as <- E.
    destruct l1 as [|? l1]; [injection E as <- _; exact Logic.I|]. injection E as <- E.
    destruct l1 as [|? l1]; [injection E as <- _; intros m (t & id & lv & p & n & K & _); destruct fuel; [discriminate R|]; vm_compute in R; injection R as <-; cbn in K; repeat (destruct K as [K|K]; [try discriminate K; injection K as K; discriminate|]); contradiction|]. injection E as <- E.
    destruct l1 as [|? l1]; [injection E as <- _; exact Logic.I|]. injection E as <- E.
    destruct l1 as [|? l1]; [injection E as <- _; exact S2|]. injection E as <- E.
    destruct l1 as [|? l1]; [injection E as <- _; exact Logic.I|]. injection E as <- E.
    destruct l1 as [|? l1]; [injection E as <- _; intros m b (t & id & lv & p & n & K & _); destruct fuel; [discriminate R|]; vm_compute in R; injection R as <-; cbn in K; repeat (destruct K as [K|K]; [try discriminate K; injection K as _ _ <- _ _ _ _; exact S2|]); contradiction|]. injection E as <- E.
    destruct l1 as [|? l1]; [injection E as <- _; intros m (t & id & lv & p & n & K & D); destruct fuel; [discriminate R|]; vm_compute in R; injection R as <-; apply (D 7%nat); cbn in K; repeat (destruct K as [K|K]; [try discriminate K; inversion K; subst; cbn; auto|]); contradiction|]. injection E as <- E.
    destruct l1; discriminate.
  - eexists. vm_compute. reflexivity.
Qed.

(* gutil_log_dump_bytes does not reference the GBytes: a log function which drops the last reference makes it read freed memory, although
   the bytes were valid when they were passed to it *)
Theorem C103_free_refuted : exists isp c0 m0 ls x, isp 0 = false /\ nth_error m0 0 = Some (Some x) /\ ls = [LDumpBytes (Some 1%nat) 4 None (Some 0%nat); LGo; LFree 0; LReturn; LGo] /\
  forall d fuel, (1 <= fuel)%nat -> run fuel d isp (r_start c0 m0) ls = Some (Fail UseAfterFree).
Proof. exists x_isp, x_c, x_mem. do 2 eexists. split; [reflexivity|]. split; [reflexivity|]. split; [reflexivity|]. intros d [|fuel] H; [lia|]. destruct d; vm_compute; reflexivity. Qed.
Print Assumptions C103_free_refuted.
