(* C100: programs with string arrays compute what they would with lists of strings *)
From Verif Require Import Base PtrvModel PtrvSpec StrvModel StrvSpec StrvProps WordsModel WordsSpec WordsProofs.

(* Whatever the program does with its arrays and strings: nothing goes wrong, its arrays are the lists, its strings are there, and all queries were
   answered as for the lists. Missing: arrays of 2^31 strings; programs which remove all strings equal to an element of the array itself, except as in harmless (see C100_alias_partial). *)
Theorem C100_programs_partial : forall qsort scmp n l, good_qsort qsort -> good_strcmp scmp -> legal (empty n) l ->
  exists s, run qsort scmp (start n) l = Ok s /\ s_out s = w_out (outcome (empty n) l) /\
    Forall2 (reads (s_heap s)) (s_vars s) (w_vars (outcome (empty n) l)) /\ Forall2 (reads1 (s_heap s)) (s_own s) (w_own (outcome (empty n) l)).
Proof.
  intros qsort scmp n l GQ GS L. destruct (run_ok qsort scmp l GQ GS (start n) (empty n) (start_ok n) L) as (s & R & p & q & HI & F & EO & EV & EW & EQ).
  exists s. split; [exact R|]. split; [exact EQ|]. destruct HI as (_ & HI & _). split.
  - rewrite EV. assert (X : forall ps i t, In ps p -> In (i, t) ps -> nth_error (s_heap s) i = Some (Some t)).
    { intros ps i t X Y. apply HI. apply in_or_app. left. apply in_concat. exists ps. split; [exact X|exact Y]. }
    clear - F X. revert X. induction F as [|x ps vs p (H & _) _ IH]; intros X; cbn [map]; constructor.
    + exists ps. split; [exact H|]. split; [reflexivity|]. intros i t Y. exact (X ps i t (or_introl eq_refl) Y).
    + apply IH. intros ps' i t Y. apply X. right. exact Y.
  - rewrite EO, EW. assert (X : forall i t, In (Some (i, t)) q -> nth_error (s_heap s) i = Some (Some t)).
    { intros i t X. apply HI. apply in_or_app. right. apply in_flat_map. exists (Some (i, t)). split; [exact X|left; reflexivity]. }
    clear - X. induction q as [|[(i, t)|] q IH]; cbn [map option_map fst snd]; constructor.
    + cbn [reads1]. apply X. left. reflexivity.
    + apply IH. intros j u Y. apply X. right. exact Y.
    + exact Logic.I.
    + apply IH. intros j u Y. apply X. right. exact Y.
Qed.
Print Assumptions C100_programs_partial.

(* No string leaks, and none belongs to two arrays: there are as many strings in memory as in the arrays and in the hands of the program,
   and the program can free all its arrays and strings. Missing: as above. *)
Theorem C100_memory_partial : forall qsort scmp n l, good_qsort qsort -> good_strcmp scmp -> legal (empty n) l ->
  exists s, run qsort scmp (start n) l = Ok s /\
    alive (s_heap s) = (strings_of (w_vars (outcome (empty n) l)) + own_of (w_own (outcome (empty n) l)))%nat.
Proof.
  intros qsort scmp n l GQ GS L. destruct (run_ok qsort scmp l GQ GS (start n) (empty n) (start_ok n) L) as (s & R & p & q & HI & F & EO & EV & EW & EQ).
  exists s. split; [exact R|]. rewrite (alive_length _ _ HI), app_length, EV, EW. f_equal.
  - clear. induction p as [|ps p IH]; cbn [concat map strings_of]; [reflexivity|]. rewrite app_length, map_length, IH. reflexivity.
  - clear. unfold somes. induction q as [|[x|] q IH]; cbn [flat_map map option_map own_of]; [reflexivity| |exact IH]. rewrite app_length, IH. reflexivity.
Qed.
Print Assumptions C100_memory_partial.

(* Cleared, everything is gone. Missing: as above. *)
Lemma outcome_app w l m : outcome w (l ++ m) = outcome (outcome w l) m.
Proof. apply fold_left_app. Qed.
Lemma legal_app w l m : legal w l -> legal (outcome w l) m -> legal w (l ++ m).
Proof.
  revert w. induction l as [|o l IH]; intros w L M; cbn [app legal]; [exact M|]. destruct L as (A & L). split; [exact A|]. apply IH; [exact L|exact M].
Qed.
Definition clear_all (w : world) : list op := map OClear (seq 0 (length (w_vars w))) ++ map OFree (seq 0 (length (w_own w))).
Lemma clear_vars : forall k w j, (j + k = length (w_vars w))%nat -> (forall i l, (i < j)%nat -> nth_error (w_vars w) i = Some l -> l = []) ->
  legal w (map OClear (seq j k)) /\ strings_of (w_vars (outcome w (map OClear (seq j k)))) = 0%nat /\ w_own (outcome w (map OClear (seq j k))) = w_own w.
Proof.
  induction k as [|k IH]; intros w j E H; cbn [seq map legal outcome fold_left].
  - split; [exact Logic.I|]. split; [|reflexivity]. assert (X : forall i l, nth_error (w_vars w) i = Some l -> l = []).
    { intros i l X. apply (H i l); [|exact X]. rewrite E, Nat.add_0_r || idtac. apply (fun a => Nat.lt_le_trans i (length (w_vars w)) j a); [apply nth_error_Some; rewrite X; discriminate|lia]. }
    clear - X. induction (w_vars w) as [|l v IH]; cbn [strings_of]; [reflexivity|]. rewrite (X O l eq_refl), IH; [reflexivity|]. intros i m Y. exact (X (S i) m Y).
  - destruct (IH (after w (OClear j)) (S j)) as (A & B & C).
    + cbn [after put w_vars]. rewrite upd_length. lia.
    + intros i l L X. cbn [after put w_vars] in X. destruct (Nat.eq_dec i j) as [->|N].
      * rewrite nth_error_upd_eq in X by lia. injection X as <-. reflexivity.
      * rewrite nth_error_upd_ne in X by congruence. exact (H i l ltac:(lia) X).
    + split; [split; [cbn [allowed]; unfold room; lia|exact A]|]. split; [exact B|exact C].
Qed.
Lemma clear_own : forall k w j, (j + k = length (w_own w))%nat -> (forall i l, (i < j)%nat -> nth_error (w_own w) i = Some l -> l = None) ->
  legal w (map OFree (seq j k)) /\ own_of (w_own (outcome w (map OFree (seq j k)))) = 0%nat /\ w_vars (outcome w (map OFree (seq j k))) = w_vars w.
Proof.
  induction k as [|k IH]; intros w j E H; cbn [seq map legal outcome fold_left].
  - split; [exact Logic.I|]. split; [|reflexivity]. assert (X : forall i l, nth_error (w_own w) i = Some l -> l = None).
    { intros i l X. apply (H i l); [|exact X]. apply (fun a => Nat.lt_le_trans i (length (w_own w)) j a); [apply nth_error_Some; rewrite X; discriminate|lia]. }
    clear - X. induction (w_own w) as [|l v IH]; cbn [own_of]; [reflexivity|]. rewrite (X O l eq_refl), IH; [reflexivity|]. intros i m Y. exact (X (S i) m Y).
  - destruct (IH (after w (OFree j)) (S j)) as (A & B & C).
    + cbn [after w_own]. rewrite upd_length. lia.
    + intros i l L X. cbn [after w_own] in X. destruct (Nat.eq_dec i j) as [->|N].
      * rewrite nth_error_upd_eq in X by lia. injection X as <-. reflexivity.
      * rewrite nth_error_upd_ne in X by congruence. exact (H i l ltac:(lia) X).
    + split; [split; [exact Logic.I|exact A]|]. split; [exact B|exact C].
Qed.
Theorem C100_clear_partial : forall qsort scmp n l, good_qsort qsort -> good_strcmp scmp -> legal (empty n) l ->
  exists s, run qsort scmp (start n) (l ++ clear_all (outcome (empty n) l)) = Ok s /\ alive (s_heap s) = 0%nat.
Proof.
  intros qsort scmp n l GQ GS L. set (w := outcome (empty n) l).
  destruct (clear_vars (length (w_vars w)) w 0 eq_refl) as (A1 & B1 & C1); [intros i m X; lia|].
  set (w1 := outcome w (map OClear (seq 0 (length (w_vars w))))) in *.
  destruct (clear_own (length (w_own w)) w1 0) as (A2 & B2 & C2); [rewrite C1; reflexivity|intros i m X; lia|].
  assert (LL : legal (empty n) (l ++ clear_all w)).
  { apply legal_app; [exact L|]. unfold clear_all. apply legal_app; [exact A1|exact A2]. }
  destruct (C100_memory_partial qsort scmp n _ GQ GS LL) as (s & R & E). exists s. split; [exact R|]. rewrite E, outcome_app. fold w. unfold clear_all.
  rewrite outcome_app. fold w1. rewrite B2, C2, B1. reflexivity.
Qed.
Print Assumptions C100_clear_partial.

(* All strings equal to an element of the array itself are removed, and this element is neither the only one and the last string of the array
   nor right behind the first one: then it is used after it was freed, always. Missing: as above. *)
Theorem C100_alias_partial : forall qsort scmp n l v a, good_qsort qsort -> good_strcmp scmp -> legal (empty n) l ->
  room (outcome (empty n) l) v -> known (outcome (empty n) l) a -> ~ harmless (outcome (empty n) l) v a ->
  run qsort scmp (start n) (l ++ [ORemove v a true]) = Fail UseAfterFree.
Proof.
  intros qsort scmp n l v a GQ GS L Rv K D. destruct (run_ok qsort scmp l GQ GS (start n) (empty n) (start_ok n) L) as (s & R & X).
  rewrite run_app, R. cbn [bind run]. rewrite (step_alias qsort scmp s _ v a GS X Rv K D). reflexivity.
Qed.
Print Assumptions C100_alias_partial.
Theorem C100_alias_refuted : exists qsort scmp l, good_qsort qsort /\ good_strcmp scmp /\ legal (empty 1) l /\
  run qsort scmp (start 1) (l ++ [ORemove 0 (AElem 0 0) true]) = Fail UseAfterFree.
Proof.
  exists isort, ex_scmp, [ONew [97]; OAdd 0 (AOwn 0); OAdd 0 (AOwn 0)]. split; [exact isort_good|]. split; [exact ex_scmp_good|]. split; [|vm_compute; reflexivity].
  cbn [legal allowed]. split; [repeat constructor|]. split; [|split; [|exact Logic.I]]; (split; [unfold room; vm_compute; lia|]); (split; [exact Logic.I|vm_compute; reflexivity]).
Qed.
Print Assumptions C100_alias_refuted.
Example C100_example_alias : legal (empty 1) [ONew [97]; OAdd 0 (AOwn 0); OAdd 0 (AOwn 0); ORemove 0 (AElem 0 1) true] /\
  ~ harmless (outcome (empty 1) [ONew [97]; OAdd 0 (AOwn 0); OAdd 0 (AOwn 0)]) 0 (AElem 0 0) /\
  exists s, run isort ex_scmp (start 1) [ONew [97]; OAdd 0 (AOwn 0); OAdd 0 (AOwn 0); ORemove 0 (AElem 0 1) true] = Ok s /\ alive (s_heap s) = 1%nat.
Proof.
  split; [|split].
  - cbn [legal allowed]. split; [repeat constructor|]. split; [|split; [|split; [|exact Logic.I]]]; (split; [unfold room; vm_compute; lia|]); [split; [exact Logic.I|vm_compute; reflexivity]|split; [exact Logic.I|vm_compute; reflexivity]|].
    split; [split; [unfold room; vm_compute; lia|lia]|]. intros _ _. right. exists [97], 0%nat. split; [reflexivity|]. split; [split; [reflexivity|intros j L; lia]|right; reflexivity].
  - intros H. destruct (H eq_refl) as [X|(t & f & E & (F1 & F2) & [(_ & Y)|Y])]; discriminate.
  - eexists. split; [vm_compute; reflexivity|reflexivity].
Qed.

(* Two arrays; strings "b", " a ", "c"; strings go from one array to the other *)
Definition ex_prog : list op :=
  [ONew [98]; ONew [32; 97; 32]; ONew [99]; OAddv 0 [AOwn 0; AOwn 1; AOwn 2; AOwn 0]; OFree 0; OAdd 1 (AElem 0 1); OAdd 1 (AElem 0 9); OStrip 0; OEqual 0 1;
   ODups 0; OSort 0 true; OSearch 0 (AOwn 2) true; OFind 0 (AElem 0 1); ORemoveAt 0 1 false; OLength 0; OAddv 1 [AElem 0 0; AElem 1 0; AOwn 0; AOwn 2];
   ORemove 1 (AOwn 1) true; OContains 1 (AOwn 1); OFindLast 1 (AElem 1 0); OSort 1 false; OAdd 0 (AOwn 3); ORemove 0 (AElem 0 0) false; OEqual 0 0; OClear 1].
Definition ex_world : world := Eval vm_compute in outcome (empty 2) ex_prog.
Example C100_example_world : outcome (empty 2) ex_prog = ex_world /\
  ex_world = Wd [[[99]; [98]]; []] [None; Some [32; 97; 32]; Some [99]; Some [98]] [1; 0; 0; 2; 1; 1; 0].
Proof. split; vm_compute; reflexivity. Qed.
Definition ex_state : state := Eval vm_compute in match run isort ex_scmp (start 2) ex_prog with Ok s => s | _ => start 2 end.
Example C100_example_run : run isort ex_scmp (start 2) ex_prog = Ok ex_state /\ s_out ex_state = w_out ex_world /\ alive (s_heap ex_state) = 5%nat.
Proof. split; [vm_compute; reflexivity|]. split; reflexivity. Qed.
Example C100_example_legal : good_qsort isort /\ good_strcmp ex_scmp /\ legal (empty 2) ex_prog.
Proof.
  split; [exact isort_good|]. split; [exact ex_scmp_good|]. unfold ex_prog.
  repeat match goal with
  | |- legal _ [] => exact Logic.I
  | |- legal ?w (?o :: ?l) => let w' := eval vm_compute in (after w o) in change (allowed w o /\ legal w' l); split
  end; cbn [allowed known]; repeat match goal with
  | |- _ /\ _ => split
  | |- True => exact Logic.I
  | |- room _ _ => unfold room; cbn; lia
  | |- good_str _ => repeat constructor
  | |- Forall _ _ => constructor; cbn [known]
  | |- StronglySorted _ _ => vm_compute; repeat constructor; discriminate
  | |- false = true -> _ => discriminate
  | |- harmless _ _ (AOwn _) => exact Logic.I
  | |- _ -> _ => intros _
  | |- _ <> _ => discriminate
  | |- _ => vm_compute; (reflexivity || discriminate || exact Logic.I)
  end.
Qed.
