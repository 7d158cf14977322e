(* C93 once more: names with newlines, with colons, and names which differ in the case of letters only *)
From Coq Require Import String.
From Verif Require Import Base LogModel LogSpec LogProofs LogProps DescModel DescSpec DescProofs DescProps.

Lemma unlines_mods names : unlines (map mod_line names) = concat (map (fun n => chars "  " ++ n ++ [10]) names).
Proof. induction names as [|n l IH]; [reflexivity|]. cbn [map concat unlines]. rewrite <- IH. unfold mod_line. rewrite <- !app_assoc. reflexivity. Qed.

(* The text, whatever the names are *)
Theorem C93_text_exact deflt c modules names count : Forall2 (fun m n => name_of c m = Some n) modules names -> count <= len modules ->
  exists t, description deflt c None count = Ok t /\
    description deflt c (Some modules) count = Ok (t ++ [10] ++ chars "Log Modules:" ++ [10] ++ concat (map (fun n => chars "  " ++ n ++ [10]) (firstn (Z.to_nat count) names))).
Proof.
  intros F L. exists (unlines (head_line :: numbered deflt 0 levels)). split; [unfold description; change (Z.to_nat (VERBOSE + 1)) with 6%nat; rewrite desc_levels_ok; reflexivity|].
  rewrite (description_ok deflt c modules names count F L), !unlines_app, unlines_mods. reflexivity.
Qed.
Print Assumptions C93_text_exact.
Example C93_example_exact : Forall2 (fun m n => name_of x_conf m = Some n) [1; 2; 1]%nat [chars "a"; chars "b"; chars "a"] /\ 2 <= len [1; 2; 1]%nat.
Proof. split; [repeat constructor|vm_compute; discriminate]. Qed.

(* %s is given NULL exactly if one of the modules to be listed has no name *)
Lemma null_exact c : forall l a desc n, (n <= length l)%nat -> Forall (fun m => (m < length (c_mods c))%nat) l ->
  (desc_modules n c (a ++ l) (len a) desc = Fail NullDeref <-> exists m, In m (firstn n l) /\ name_of c m = None) /\
  ((forall m, In m (firstn n l) -> name_of c m <> None) -> exists t, desc_modules n c (a ++ l) (len a) desc = Ok t).
Proof.
  induction l as [|m l IH]; intros a desc [|n] L F; cbn [length] in L; try lia.
  - split; [split; [discriminate|intros (m & [] & _)]|intros _; eexists; reflexivity].
  - cbn [firstn desc_modules]. split; [split; [discriminate|intros (k & [] & _)]|intros _; eexists; reflexivity].
  - inversion F as [|? ? Hm Fl]; subst. cbn [desc_modules]. assert (E : rd (a ++ m :: l) (len a) = Ok m). { unfold rd, len. rewrite app_length. cbn [List.length]. replace (0 <=? Z.of_nat (length a)) with true by lia. replace (Z.of_nat (length a) <? _) with true by lia. cbn [andb]. rewrite Nat2Z.id, nth_error_app2, Nat.sub_diag by lia. reflexivity. }
    rewrite E. cbn [bind].
    destruct (nth_error (c_mods c) m) as [x|] eqn:Ex; [|apply nth_error_None in Ex; lia]. unfold the_mod. rewrite Ex. cbn [bind firstn].
    destruct (m_name x) as [name|] eqn:En.
    + destruct (IH (a ++ [m]) (desc ++ lit "  " ++ name ++ nl) n ltac:(lia) Fl) as (I1 & I2). rewrite <- app_assoc, len_app in I1, I2. cbn [app] in I1, I2. change (len [m]) with 1 in I1, I2.
      assert (Nm : name_of c m <> None) by (unfold name_of; rewrite Ex; congruence). split.
      * rewrite I1. split; intros (k & Hk & N); exists k; split; auto; [right; auto|]. destruct Hk as [<-|Hk]; [congruence|auto].
      * intros H1. apply I2. intros k Hk. apply H1. right. auto.
    + assert (Nm : name_of c m = None) by (unfold name_of; rewrite Ex; auto). split.
      * split; [|auto]. intros _. exists m. split; [left; auto|auto].
      * intros H1. exfalso. apply (H1 m); [left; auto|auto].
Qed.
Theorem C93_null_exact deflt c modules count : Forall (fun m => (m < length (c_mods c))%nat) modules -> count <= len modules ->
  (description deflt c (Some modules) count = Fail NullDeref <-> exists m, In m (firstn (Z.to_nat count) modules) /\ name_of c m = None) /\
  ((forall m, In m (firstn (Z.to_nat count) modules) -> name_of c m <> None) -> exists t, description deflt c (Some modules) count = Ok t).
Proof.
  intros F L. unfold description. change (Z.to_nat (VERBOSE + 1)) with 6%nat. rewrite desc_levels_ok. cbn [bind]. apply (null_exact c modules []); [unfold len in L; lia|exact F].
Qed.
Print Assumptions C93_null_exact.
(* the default module has no name, the last one is not listed *)
Example C93_example_null : (exists t, description 3 x_conf (Some [1; 2; 0]%nat) 2 = Ok t) /\ description 3 x_conf (Some [1; 2; 0]%nat) 3 = Fail NullDeref.
Proof. split; [eexists|]; vm_compute; reflexivity. Qed.

(* An option made of a name which is listed and of a level sets the first module of that name, the case of letters is ignored: the one meant, unless there is such a module in front of it *)
Theorem C93_first_exact c modules names count k m name s v e : Forall2 (fun m n => name_of c m = Some n) modules names -> Forall no_nul names -> count <= len modules ->
  nth_error (firstn (Z.to_nat count) modules) k = Some m -> name_of c m = Some name -> ~ In 58 name -> names_level s v -> no_nul s ->
  exists m' c', first_named c (firstn (Z.to_nat count) modules) name m' /\ parse_option c (name ++ chars ":" ++ s) modules count e = Ok (true, c', false) /\ only_level c c' m' v /\
    (m' = m \/ exists i n, (i < k)%nat /\ nth_error modules i = Some m' /\ name_of c m' = Some n /\ same_name n name).
Proof.
  intros F N L K NM N58 NL NS.
  assert (FM : Forall (fun m => exists n, name_of c m = Some n /\ no_nul n) modules).
  { apply Forall_forall. intros j H. apply In_nth_error in H. destruct H as (i & H). destruct (Forall2_nth _ _ _ F i j H) as (n & H1 & H2). exists n. split; auto. apply (proj1 (Forall_forall _ _) N n (nth_error_In _ _ H1)). }
  assert (KC : (k < Z.to_nat count)%nat). { assert (X : (k < length (firstn (Z.to_nat count) modules))%nat) by (apply nth_error_Some; congruence). rewrite firstn_length in X. lia. }
  assert (NN : no_nul name). { rewrite nth_firstn in K by auto. destruct (Forall2_nth _ _ _ F k m K) as (n & H1 & H2). assert (n = name) as -> by congruence. apply (proj1 (Forall_forall _ _) N name (nth_error_In _ _ H1)). }
  assert (X : exists m' i, first_named c (firstn (Z.to_nat count) modules) name m' /\ nth_error (firstn (Z.to_nat count) modules) i = Some m' /\ (i <= k)%nat).
  { clear - K NM FM. assert (FF : Forall (fun m => exists n, name_of c m = Some n /\ no_nul n) (firstn (Z.to_nat count) modules)).
    { apply Forall_forall. intros x Hx. apply (proj1 (Forall_forall _ _) FM). rewrite <- (firstn_skipn (Z.to_nat count) modules). apply in_or_app. auto. }
    clear FM. revert k K. generalize dependent (firstn (Z.to_nat count) modules). intros l FF. induction FF as [|x l (n & Hn & _) FF IH]; intros k K; [destruct k; discriminate|].
    destruct (list_eq_dec Z.eq_dec (map fold_case n) (map fold_case name)) as [S|S].
    - exists x, O. split; [|split; [reflexivity|lia]]. exists [], l, n. repeat split; auto.
    - destruct k as [|k]; cbn [nth_error] in K; [injection K as <-; assert (n = name) as -> by congruence; destruct (S eq_refl)|].
      destruct (IH k K) as (m' & i & (a & b & n' & -> & H1 & H2 & H3) & Hi & Le). exists m', (Datatypes.S i). split; [|split; [exact Hi|lia]]. exists (x :: a), b, n'. split; [reflexivity|]. split; auto. split; auto.
      intros j jn [<-|Hj] Hjn; [|eauto]. assert (jn = n) as -> by congruence. exact S. }
  destruct X as (m' & i & FN & Hi & Le). destruct (C64_module_partial c name s v modules count m' e NN NS N58 NL FM L FN) as (c' & P & O). exists m', c'. split; auto. split; auto. split; auto.
  destruct (Nat.eq_dec i k) as [->|Ne]; [left; congruence|]. right. destruct FN as (a & b & n & _ & H1 & H2 & _). exists i, n. split; [lia|]. split; [|auto]. rewrite <- Hi. symmetry. apply nth_firstn. lia.
Qed.
Print Assumptions C93_first_exact.
Definition ex_case : conf := Conf [LogMod None None None 3 0; LogMod (Some (chars "net")) None None (-1) 0; LogMod (Some (chars "Net")) None None (-1) 0] (Some FStdout) (Some PDefault).
Example C93_example_first : Forall2 (fun m n => name_of ex_case m = Some n) [1; 2]%nat [chars "net"; chars "Net"] /\ Forall no_nul [chars "net"; chars "Net"] /\ ~ In 58 (chars "Net") /\ names_level (chars "debug") 4.
Proof. split; [repeat constructor|]. split; [repeat constructor; discriminate|]. split; [cbn; intuition lia|]. right. split; [discriminate|]. split; [lia|]. exists []. reflexivity. Qed.

(* ... so that one of two modules whose names differ in the case of letters only cannot be given although it is listed *)
Theorem C93_case_refuted : exists c m name, name_of c m = Some name /\ ~ In 58 name /\ ~ In 10 name /\ (forall k, name_of c k = Some name -> k = m) /\
  exists t ls line, description 3 c (Some [1; 2]%nat) 2 = Ok t /\ lines t ls /\ nth_error ls 10 = Some line /\ module_line line name /\ nth_error [1; 2]%nat 1 = Some m /\
  exists c', parse_option c (name ++ chars ":debug") [1; 2]%nat 2 true = Ok (true, c', false) /\ nth_error (c_mods c') m = nth_error (c_mods c) m /\ c' <> c.
Proof.
  exists ex_case, 2%nat, (chars "Net"). split; [reflexivity|]. split; [cbn; intuition lia|]. split; [cbn; intuition lia|]. split; [intros [|[|[|[|k]]]] H; try reflexivity; discriminate|].
  eexists _, _, (chars "  Net"). split; [apply (description_ok 3 ex_case [1; 2]%nat [chars "net"; chars "Net"] 2); [repeat constructor|vm_compute; discriminate]|].
  split; [apply lines_unlines, desc_nonl; repeat constructor; cbn; intuition lia|]. split; [reflexivity|]. split; [exists (chars "  "); split; [reflexivity|repeat constructor]|]. split; [reflexivity|].
  eexists. split; [vm_compute; reflexivity|]. split; [reflexivity|discriminate].
Qed.
Print Assumptions C93_case_refuted.

(* No option sets a module with a colon in its name: the rest of the name is taken for a part of the level, and no level has a colon *)
Lemma no_colon_level s v : names_level s v -> ~ In 58 s.
Proof.
  intros [(B & ->)|(_ & B & rest & E)] I; [destruct I as [I|[]]; lia|].
  assert (X : Forall (fun w => ~ In 58 w) words) by (repeat constructor; cbn; intuition lia). apply (proj1 (Forall_forall _ _) X _ (nth_error_In _ _ E)). apply in_or_app. auto.
Qed.
Theorem C93_colon_exact c modules count name s e : In 58 name -> no_nul name -> no_nul s -> parse_option c (name ++ chars ":" ++ s) modules count e = Ok (false, c, e).
Proof.
  intros I Nn Ns. assert (X : exists a b, name = a ++ 58 :: b /\ ~ In 58 a).
  { clear - I. induction name as [|x l IH]; [destruct I|]. destruct (Z.eq_dec x 58) as [->|Ne]; [exists [], l; split; auto|]. destruct IH as (a & b & -> & H); [destruct I; [congruence|auto]|]. exists (x :: a), b. split; [reflexivity|]. intros [Q|Q]; auto. }
  destruct X as (a & b & -> & Na). unfold parse_option. rewrite <- app_assoc. cbn [app]. rewrite split_at_some by auto.
  assert (N2 : no_nul (b ++ chars ":" ++ s)). { apply Forall_app in Nn. destruct Nn as (_ & Nb). inversion Nb; subst. apply Forall_app. split; auto. apply Forall_app. split; [repeat constructor; discriminate|auto]. }
  rewrite (proj2 (parse_level_spec _ e N2)); [reflexivity|]. intros v V. apply no_colon_level in V. apply V. apply in_or_app. right. left. reflexivity.
Qed.
Print Assumptions C93_colon_exact.
Example C93_example_colon : In 58 (chars "a:b") /\ no_nul (chars "a:b") /\ no_nul (chars "info").
Proof. split; [cbn; auto|]. split; repeat constructor; discriminate. Qed.

(* With newlines in names the description does not tell the modules: the same text for one module and for two, of which the second can only be given if it exists *)
Theorem C93_newline_refuted : exists c c2 t, description 3 c (Some [1]%nat) 1 = Ok t /\ description 3 c2 (Some [1; 2]%nat) 2 = Ok t /\
  (exists ls line name, lines t ls /\ nth_error ls 10 = Some line /\ module_line line name /\ name <> [] /\ parse_option c (name ++ chars ":debug") [1]%nat 1 true = Ok (false, c, true) /\
     exists c', parse_option c2 (name ++ chars ":debug") [1; 2]%nat 2 true = Ok (true, c', false) /\ only_level c2 c' 2 4).
Proof.
  set (c := Conf [LogMod None None None 3 0; LogMod (Some (chars "a" ++ [10] ++ chars "  b")) None None (-1) 0] (Some FStdout) (Some PDefault)).
  set (c2 := Conf [LogMod None None None 3 0; LogMod (Some (chars "a")) None None (-1) 0; LogMod (Some (chars "b")) None None (-1) 0] (Some FStdout) (Some PDefault)).
  assert (D : description 3 c2 (Some [1; 2]%nat) 2 = Ok (unlines ((head_line :: numbered 3 0 levels) ++ [[]; chars "Log Modules:"] ++ map mod_line [chars "a"; chars "b"]))) by (apply (description_ok 3 c2 [1; 2]%nat [chars "a"; chars "b"] 2); [repeat constructor|vm_compute; discriminate]).
  exists c, c2. eexists. split; [|split; [exact D|]]; [vm_compute; reflexivity|].
  eexists _, (chars "  b"), (chars "b"). split; [apply lines_unlines, (desc_nonl 3 [chars "a"; chars "b"] 2); repeat constructor; cbn; intuition lia|]. split; [reflexivity|]. split; [exists (chars "  "); split; [reflexivity|repeat constructor]|].
  split; [discriminate|]. split; [vm_compute; reflexivity|]. eexists. split; [vm_compute; reflexivity|]. split; [reflexivity|]. split; [reflexivity|]. split; [intros [|[|[|k]]] H; try reflexivity; lia|].
  eexists _, _. repeat (split; [reflexivity|]). reflexivity.
Qed.
Print Assumptions C93_newline_refuted.
