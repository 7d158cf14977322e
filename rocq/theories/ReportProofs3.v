(* The story of each dump *)
From Coq Require Import String Ascii List Sorted.
From Coq Require Import ZifyBool.
From Verif Require Import Base HexModel HexSpec LogModel LogSpec ReportModel ReportSpec ReportProofs ReportProofs2.
Import ListNotations.
Open Scope Z_scope.

Definition tm (x : nat * option nat * Z * list Z) : nat := fst (fst (fst x)).

Definition told (isp : Z -> bool) (m0 : memory) (ls : list label) (tr : list (nat * event)) (js : list job) (t0 id : nat) (m : option nat) (lv : Z) (p : option (list Z)) (b : nat) (n : Z) : Prop :=
  StronglySorted lt (map tm (rev (lines_of id tr))) /\
  (forall k t m' lv' text, nth_error (rev (lines_of id tr)) k = Some (t, m', lv', text) -> (t0 < t)%nat /\ m' = m /\ lv' = lv /\
     (inside m0 b n -> 16 * Z.of_nat k < n /\ exists data, nth_error (mem_at m0 (firstn t ls)) b = Some (Some data) /\
        shown (fun b => isp (if b <? 128 then b else b - 256)) (prefix_text p) (16 * Z.of_nat k) (slice data (16 * Z.of_nat k) (Z.min (16 * Z.of_nat k + 16) n)) text)) /\
  ((exists off size, In (Job id m lv (prefix_text p) b off size) js /\ (forall td, ~ In (td, EDone id) tr) /\ (inside m0 b n -> off = Z.min (16 * len (lines_of id tr)) n /\ size = n - off))
   \/ (exists td, In (td, EDone id) tr /\ (forall td', In (td', EDone id) tr -> td' = td) /\ (t0 < td)%nat /\ (forall x, In x (lines_of id tr) -> (tm x < td)%nat) /\
         (inside m0 b n -> n <= 16 * len (lines_of id tr)) /\ forall j, In j js -> j_id j <> id)).

Record inv (isp : Z -> bool) (m0 : memory) (ls : list label) (tr : list (nat * event)) (js : list job) (ids : nat) : Prop := Inv {
  i_sorted : StronglySorted (fun a b => (j_id b < j_id a)%nat) js;
  i_below : Forall (fun j => (j_id j < ids)%nat) js;
  i_ids : forall t id m lv p b n on, In (t, EDump id m lv p b n on) tr -> (id < ids)%nat;
  i_once : forall id t m lv p b n on t' m' lv' p' b' n' on', In (t, EDump id m lv p b n on) tr -> In (t', EDump id m' lv' p' b' n' on') tr -> (t, m, lv, p, b, n, on) = (t', m', lv', p', b', n', on');
  i_told : forall t id m lv p b n, In (t, EDump id m lv p b n true) tr -> told isp m0 ls tr js t id m lv p b n;
  i_off : forall t id m lv p b n, In (t, EDump id m lv p b n false) tr -> lines_of id tr = [] /\ forall td, ~ In (td, EDone id) tr;
  i_job : forall id m lv q b off size, In (Job id m lv q b off size) js -> exists t p n, In (t, EDump id m lv p b n true) tr /\ q = prefix_text p;
  i_from : forall id, (lines_of id tr <> [] \/ exists td, In (td, EDone id) tr) -> exists t m lv p b n, In (t, EDump id m lv p b n true) tr }.

Lemma line_in id tr t m lv text : In (t, m, lv, text) (lines_of id tr) <-> In (t, EMsg (Some id) m lv text) tr.
Proof.
  unfold lines_of. rewrite in_flat_map. split.
  - intros ((t', e) & Hin & H). unfold line_of in H. destruct e as [[i|] m' lv' text'| | |]; try contradiction. destruct (Nat.eqb_spec i id) as [->|]; [|contradiction]. destruct H as [H|[]]. injection H as -> -> -> ->. auto.
  - intros H. exists (t, EMsg (Some id) m lv text). split; auto. cbn. rewrite Nat.eqb_refl. left. auto.
Qed.

Definition same_dumps (tr tr' : list (nat * event)) : Prop :=
  (forall id, lines_of id tr' = lines_of id tr) /\ (forall t id m lv p b n on, In (t, EDump id m lv p b n on) tr' <-> In (t, EDump id m lv p b n on) tr) /\
  (forall t id, In (t, EDone id) tr' <-> In (t, EDone id) tr).

Lemma told_same isp m0 ls l tr tr' js t0 id m lv p b n : (forall t e, In (t, e) tr -> (t < length ls)%nat) -> same_dumps tr tr' -> told isp m0 ls tr js t0 id m lv p b n -> told isp m0 (ls ++ [l]) tr' js t0 id m lv p b n.
Proof.
  intros Ht (SL & SD & SN) (T1 & T2 & T3). unfold told. rewrite SL. split; auto. split.
  - intros k t m' lv' text E. destruct (T2 k t m' lv' text E) as (A & B & C & D). repeat split; auto.
    + apply D; auto.
    + destruct D as (_ & data & D1 & D2); auto. exists data. split; auto. rewrite firstn_app. 
      assert (t < length ls)%nat by (apply nth_error_In in E; apply in_rev, line_in in E; eauto). replace (t - length ls)%nat with 0%nat by lia. cbn [firstn]. rewrite app_nil_r. auto.
  - destruct T3 as [(off & size & H1 & H2 & H3)|(td & H1 & H2 & H3 & H4 & H5 & H6)].
    + left. exists off, size. repeat split; auto; [|apply H3; auto..]. intros td K. apply SN in K. eapply H2; eauto.
    + right. exists td. repeat split; auto; [apply SN; auto|]. intros td' K. apply SN in K. auto.
Qed.

Lemma inv_same isp m0 ls l tr tr' js ids : (forall t e, In (t, e) tr -> (t < length ls)%nat) -> same_dumps tr tr' -> inv isp m0 ls tr js ids -> inv isp m0 (ls ++ [l]) tr' js ids.
Proof.
  intros Ht SD I. pose proof SD as (SL & SE & SN). destruct I. constructor; auto.
  - intros t id m lv p b n on K. apply SE in K. eauto.
  - intros id t m lv p b n on t' m' lv' p' b' n' on' K K'. apply SE in K, K'. eauto.
  - intros t id m lv p b n K. apply SE in K. eapply told_same; eauto.
  - intros t id m lv p b n K. apply SE in K. rewrite SL. destruct (i_off0 _ _ _ _ _ _ _ K) as (A & B). split; auto. intros td K'. apply SN in K'. eapply B; eauto.
  - intros id m lv q b off size K. destruct (i_job0 _ _ _ _ _ _ _ K) as (t & p & n & A & B). exists t, p, n. split; auto. apply SE. auto.
  - intros id K. rewrite SL in K. destruct (i_from0 id) as (t & m & lv & p & b & n & A); [destruct K as [K|(td & K)]; [auto|right; exists td; apply SN; auto]|].
    exists t, m, lv, p, b, n. apply SE. auto.
Qed.

Lemma same_refl tr : same_dumps tr tr.
Proof. repeat split; auto. Qed.
Lemma same_msg T r m lv text tr : calls_only r -> same_dumps tr (map (pair T) (r ++ [EMsg None m lv text]) ++ tr).
Proof.
  intros C. split; [|split].
  - intros id. rewrite lines_app, map_app, lines_app, calls_lines by auto. reflexivity.
  - intros t id m' lv' p b n on. split; [|intros K; apply in_or_app; auto]. intros K. apply in_new in K; auto. destruct K as [(_ & [(o & K)|K])|K]; [discriminate..|auto].
  - intros t id. split; [|intros K; apply in_or_app; auto]. intros K. apply in_new in K; auto. destruct K as [(_ & [(o & K)|K])|K]; [discriminate..|auto].
Qed.

Lemma fresh isp m0 ls tr js ids : inv isp m0 ls tr js ids -> lines_of ids tr = [] /\ forall td, ~ In (td, EDone ids) tr.
Proof.
  intros I. split.
  - destruct (lines_of ids tr) eqn:E; auto. destruct (i_from _ _ _ _ _ _ I ids) as (t & m & lv & q & b & n & K); [left; congruence|]. apply (i_ids _ _ _ _ _ _ I) in K. lia.
  - intros td H. destruct (i_from _ _ _ _ _ _ I ids) as (t & m & lv & q & b & n & K); [right; eauto|]. apply (i_ids _ _ _ _ _ _ I) in K. lia.
Qed.

Lemma inv_begin isp m0 ls l tr js ids m lv p b n on : (forall t e, In (t, e) tr -> (t < length ls)%nat) -> inv isp m0 ls tr js ids ->
  inv isp m0 (ls ++ [l]) ((length ls, EDump ids m lv p b n on) :: tr) (if (on : bool) then Job ids m lv (prefix_text p) b 0 n :: js else js) (S ids).
Proof.
  intros Ht I. destruct (fresh _ _ _ _ _ _ I) as (F1 & F2).
  assert (SL : forall id, lines_of id ((length ls, EDump ids m lv p b n on) :: tr) = lines_of id tr) by reflexivity.
  assert (SN : forall t id, In (t, EDone id) ((length ls, EDump ids m lv p b n on) :: tr) <-> In (t, EDone id) tr) by (intros t id; split; [intros [K|K]; [discriminate|auto]|intros K; right; auto]).
  assert (Below : Forall (fun j => (j_id j < ids)%nat) js) by apply I.
  constructor.
  - destruct on; [|apply I]. constructor; [apply I|]. exact Below.
  - assert (Forall (fun j => (j_id j < S ids)%nat) js) by (eapply Forall_impl; [|exact Below]; cbn; lia). destruct on; auto; constructor; auto; cbn; lia.
  - intros t id m' lv' p' b' n' on' [K|K]; [injection K as <- <- <- <- <- <- <- <-; lia|]. apply (i_ids _ _ _ _ _ _ I) in K. lia.
  - intros id t1 m1 lv1 p1 b1 n1 on1 t2 m2 lv2 p2 b2 n2 on2 [K|K] [K'|K'].
    + congruence.
    + injection K as <- <- <- <- <- <- <- <-. apply (i_ids _ _ _ _ _ _ I) in K'. lia.
    + injection K' as <- <- <- <- <- <- <- <-. apply (i_ids _ _ _ _ _ _ I) in K. lia.
    + eapply (i_once _ _ _ _ _ _ I); eauto.
  - intros t id m' lv' p' b' n' [K|K].
    + injection K as <- <- <- <- <- <- <- ->. unfold told. rewrite SL, F1. cbn [rev map]. split; [constructor|]. split; [intros [|k]; discriminate|].
      left. exists 0, n. split; [left; auto|]. split; [intros td K; apply SN in K; eapply F2; eauto|]. intros (x & _ & Hn & _). change (len (@nil (nat * option nat * Z * list Z))) with 0. lia.
    + pose proof (i_ids _ _ _ _ _ _ I _ _ _ _ _ _ _ _ K) as Hid. destruct (i_told _ _ _ _ _ _ I _ _ _ _ _ _ _ K) as (T1 & T2 & T3). unfold told. rewrite SL. split; auto. split.
      * intros k u m1 lv1 text E. destruct (T2 k u m1 lv1 text E) as (A & B & C & D). repeat split; auto; [apply D; auto|].
        destruct D as (_ & data & D1 & D2); auto. exists data. split; auto. rewrite firstn_app.
        assert (u < length ls)%nat by (apply nth_error_In in E; apply in_rev, line_in in E; eauto). replace (u - length ls)%nat with 0%nat by lia. cbn [firstn]. rewrite app_nil_r. auto.
      * destruct T3 as [(off & size & H1 & H2 & H3)|(td & H1 & H2 & H3 & H4 & H5 & H6)].
        -- left. exists off, size. split; [destruct on; [right|]; auto|]. split; auto. intros td X. apply SN in X. eapply H2; eauto.
        -- right. exists td. split; [apply SN; auto|]. split; [intros td' X; apply SN in X; auto|]. repeat split; auto. intros j Hj. destruct on; auto. destruct Hj as [<-|Hj]; auto. cbn. lia.
  - intros t id m' lv' p' b' n' [K|K].
    + injection K as <- <- <- <- <- <- <- ->. rewrite SL. split; auto. intros td X. apply SN in X. eapply F2; eauto.
    + destruct (i_off _ _ _ _ _ _ I _ _ _ _ _ _ _ K) as (A & B). rewrite SL. split; auto. intros td X. apply SN in X. eapply B; eauto.
  - intros id m' lv' q b' off size K. assert (In (Job id m' lv' q b' off size) js \/ (on = true /\ Job ids m lv (prefix_text p) b 0 n = Job id m' lv' q b' off size)) as [K'|(-> & K')].
    { destruct on; auto. destruct K as [K|K]; auto. }
    + destruct (i_job _ _ _ _ _ _ I _ _ _ _ _ _ _ K') as (t & p' & n' & A & B). exists t, p', n'. split; auto. right. auto.
    + injection K' as <- <- <- <- <- <- <-. exists (length ls), p, n. split; auto. left. auto.
  - intros id K. rewrite SL in K. destruct (i_from _ _ _ _ _ _ I id) as (t & m' & lv' & p' & b' & n' & A); [destruct K as [K|(td & K)]; [auto|right; exists td; apply SN; auto]|].
    do 6 eexists. right. eauto.
Qed.

Lemma sorted_snoc l x : StronglySorted lt l -> Forall (fun y => (y < x)%nat) l -> StronglySorted lt (l ++ [x]).
Proof. induction 1 as [|a l H IH F]; intros G; cbn; [repeat constructor|]. inversion G; subst. constructor; auto. apply Forall_app. split; auto. Qed.

Lemma head_only js j rest k : StronglySorted (fun a b => (j_id b < j_id a)%nat) js -> js = j :: rest -> In k js -> j_id k = j_id j -> k = j.
Proof. intros S -> K E. inversion S; subst. destruct K as [<-|K]; auto. rewrite Forall_forall in H2. specialize (H2 k K). lia. Qed.

Lemma told_other isp m0 ls l tr tr' js js' t0 id m lv p b n : (forall t e, In (t, e) tr -> (t < length ls)%nat) ->
  lines_of id tr' = lines_of id tr -> (forall t, In (t, EDone id) tr' <-> In (t, EDone id) tr) -> (forall j, j_id j = id -> In j js' <-> In j js) ->
  told isp m0 ls tr js t0 id m lv p b n -> told isp m0 (ls ++ [l]) tr' js' t0 id m lv p b n.
Proof.
  intros Ht SL SN SJ (T1 & T2 & T3). unfold told. rewrite SL. split; auto. split.
  - intros k t m' lv' text E. destruct (T2 k t m' lv' text E) as (A & B & C & D). repeat split; auto; [apply D; auto|].
    destruct D as (_ & data & D1 & D2); auto. exists data. split; auto. rewrite firstn_app.
    assert (t < length ls)%nat by (apply nth_error_In in E; apply in_rev, line_in in E; eauto). replace (t - length ls)%nat with 0%nat by lia. cbn [firstn]. rewrite app_nil_r. auto.
  - destruct T3 as [(off & size & H1 & H2 & H3)|(td & H1 & H2 & H3 & H4 & H5 & H6)].
    + left. exists off, size. split; [apply SJ; auto|]. split; auto. intros td K. apply SN in K. eapply H2; eauto.
    + right. exists td. split; [apply SN; auto|]. split; [intros td' K; apply SN in K; auto|]. repeat split; auto. intros j Hj E. apply SJ in Hj; auto. eapply H6; eauto.
Qed.

Lemma inv_line d isp m0 ls l tr ids id m lv q b off size rest data consumed buf line text r :
  isp 0 = false -> bytes_only m0 ls -> (forall t e, In (t, e) tr -> (t < length ls)%nat) -> inv isp m0 ls tr (Job id m lv q b off size :: rest) ids -> size > 0 ->
  nth_error (mem_at m0 ls) b = Some (Some data) -> hexdump d isp (malloc 70) (skipn (Z.to_nat off) data) (u32 size) = Ok (consumed, buf) -> cstr buf = Ok line ->
  text = q ++ fmt_X 8 4 off [] ++ [58; 32] ++ line -> calls_only r ->
  inv isp m0 (ls ++ [l]) (map (pair (length ls)) (r ++ [EMsg (Some id) m lv text]) ++ tr) (Job id m lv q b (u32 (off + consumed)) (u64 (size - consumed)) :: rest) ids.
Proof.
  intros Hi Bo Ht I Hs Eb Eh Ec Et C. set (tr' := map (pair (length ls)) (r ++ [EMsg (Some id) m lv text]) ++ tr).
  assert (Lid : lines_of id tr' = (length ls, m, lv, text) :: lines_of id tr).
  { unfold tr'. rewrite lines_app, map_app, lines_app, calls_lines by auto. cbn. rewrite Nat.eqb_refl. reflexivity. }
  assert (Lo : forall i, i <> id -> lines_of i tr' = lines_of i tr).
  { intros i N. unfold tr'. rewrite lines_app, map_app, lines_app, calls_lines by auto. cbn. destruct (Nat.eqb_spec id i); [congruence|reflexivity]. }
  assert (SD : forall t i m' lv' p b n on, In (t, EDump i m' lv' p b n on) tr' <-> In (t, EDump i m' lv' p b n on) tr).
  { intros. split; [|intros K; apply in_or_app; auto]. intros K. apply in_new in K; auto. destruct K as [(_ & [(o & K)|K])|K]; [discriminate..|auto]. }
  assert (SN : forall t i, In (t, EDone i) tr' <-> In (t, EDone i) tr).
  { intros. split; [|intros K; apply in_or_app; auto]. intros K. apply in_new in K; auto. destruct K as [(_ & [(o & K)|K])|K]; [discriminate..|auto]. }
  pose proof (i_sorted _ _ _ _ _ _ I) as So. inversion So as [|? ? So' Fo]; subst. cbn [j_id] in Fo.
  constructor.
  - constructor; auto.
  - pose proof (i_below _ _ _ _ _ _ I) as B. inversion B; subst. constructor; auto.
  - intros t i m' lv' p' b' n' on' K. apply SD in K. eapply (i_ids _ _ _ _ _ _ I); eauto.
  - intros i t1 m1 lv1 p1 b1 n1 on1 t2 m2 lv2 p2 b2 n2 on2 K K'. apply SD in K, K'. eapply (i_once _ _ _ _ _ _ I); eauto.
  - intros t i m' lv' p' b' n' K. apply SD in K. pose proof (i_told _ _ _ _ _ _ I _ _ _ _ _ _ _ K) as T. destruct (Nat.eq_dec i id) as [->|N].
    + destruct (i_job _ _ _ _ _ _ I id m lv q b off size) as (t1 & p1 & n1 & K1 & Eq); [left; auto|].
      pose proof (i_once _ _ _ _ _ _ I _ _ _ _ _ _ _ _ _ _ _ _ _ _ _ K K1) as E. injection E as -> -> -> -> -> ->. clear K1.
      destruct T as (T1 & T2 & T3). destruct T3 as [(off' & size' & H1 & H2 & H3)|(td & _ & _ & _ & _ & _ & H6)]; [|exfalso; apply (H6 (Job id m lv q b off size)); [left; auto|auto]].
      assert (Job id m lv (prefix_text p1) b off' size' = Job id m lv q b off size) as E by (exact (head_only _ (Job id m lv q b off size) rest _ So eq_refl H1 eq_refl)). injection E as _ -> ->.
      assert (Hall : forall x, In x (lines_of id tr) -> (tm x < length ls)%nat). { intros (((t', m'), lv'), tx) Hx. apply line_in in Hx. cbn. eauto. }
      assert (In1 : inside m0 b n1 -> 16 * len (lines_of id tr) < n1 /\ off = 16 * len (lines_of id tr) /\ consumed = Z.min size 16 /\ n1 < 2 ^ 32 /\ size = n1 - off /\
         shown (fun b => isp (if b <? 128 then b else b - 256)) q off (slice data off (Z.min (off + 16) n1)) (q ++ fmt_X 8 4 off [] ++ [58; 32] ++ line)).
      { intros Hin. destruct (H3 Hin) as (E1 & E2). destruct Hin as (x & Ex & Hn & H32). destruct (mem_block m0 ls Bo b data Eb) as (x' & Ex' & Lx & Hb). assert (x' = x) by congruence. subst x'.
        pose proof (len_nonneg (lines_of id tr)). assert (off = 16 * len (lines_of id tr)) by lia.
        destruct (line_shown d isp data off size q consumed buf line) as (A1 & A2); auto; try lia. repeat split; auto; try lia. replace n1 with (off + size) by lia. auto. }
      split; [|split].
      * rewrite Lid. cbn [rev]. rewrite map_app. apply sorted_snoc; auto. apply Forall_forall. intros y Hy. apply in_map_iff in Hy. destruct Hy as (x & <- & Hx). apply in_rev in Hx. apply Hall. auto.
      * rewrite Lid. cbn [rev]. intros k t2 m2 lv2 text2 E. destruct (Nat.lt_ge_cases k (length (rev (lines_of id tr)))) as [Lt|Ge].
        -- rewrite nth_error_app1 in E by auto. destruct (T2 k t2 m2 lv2 text2 E) as (A & B & C' & D). repeat split; auto; [apply D; auto|]. destruct D as (_ & dt & D1 & D2); auto. exists dt. split; auto.
           rewrite firstn_app. assert (t2 < length ls)%nat by (apply nth_error_In in E; apply in_rev, line_in in E; eauto). replace (t2 - length ls)%nat with 0%nat by lia. cbn [firstn]. rewrite app_nil_r. auto.
        -- rewrite nth_error_app2 in E by auto. destruct (k - length (rev (lines_of id tr)))%nat eqn:Ek; [|destruct n; discriminate]. cbn in E. injection E as <- <- <- <-.
           assert (k = length (rev (lines_of id tr))) as -> by lia. rewrite rev_length. fold (len (lines_of id tr)). split; [eauto|]. split; auto. split; auto. intros Hin.
           destruct (In1 Hin) as (A1 & A2 & A3 & A4 & A5 & A6). change (Z.of_nat (length (lines_of id tr))) with (len (lines_of id tr)). split; [lia|]. exists data.
           rewrite firstn_app, Nat.sub_diag, firstn_all. cbn [firstn]. rewrite app_nil_r. split; auto. rewrite <- A2, <- Eq. exact A6.
      * left. exists (u32 (off + consumed)), (u64 (size - consumed)). split; [left; rewrite Eq; auto|]. split; [intros td X; apply SN in X; eapply H2; eauto|].
        rewrite Lid. intros Hin. destruct (In1 Hin) as (A1 & A2 & A3 & A4 & A5 & _). pose proof (len_nonneg (lines_of id tr)). rewrite len_cons.
        rewrite u32_id by (unfold in_u32; lia). rewrite u64_id by (unfold in_u64; lia). lia.
    + eapply told_other; eauto. intros j Hj. cbn [In]. split; intros [X|X]; auto; subst j; cbn in Hj; congruence.
  - intros t i m' lv' p' b' n' K. apply SD in K. destruct (i_off _ _ _ _ _ _ I _ _ _ _ _ _ _ K) as (A & B). split; [|intros td X; apply SN in X; eapply B; eauto].
    rewrite Lo; auto. intros ->. destruct (i_job _ _ _ _ _ _ I id m lv q b off size) as (t1 & p1 & n1 & K1 & Eq); [left; auto|].
    pose proof (i_once _ _ _ _ _ _ I _ _ _ _ _ _ _ _ _ _ _ _ _ _ _ K K1). congruence.
  - intros i m' lv' q' b' off' size' [K|K].
    + injection K as <- <- <- <- <- _ _. destruct (i_job _ _ _ _ _ _ I id m lv q b off size) as (t1 & p1 & n1 & K1 & Eq); [left; auto|]. exists t1, p1, n1. split; auto. apply SD. auto.
    + destruct (i_job _ _ _ _ _ _ I i m' lv' q' b' off' size') as (t1 & p1 & n1 & K1 & Eq); [right; auto|]. exists t1, p1, n1. split; auto. apply SD. auto.
  - intros i K. destruct (Nat.eq_dec i id) as [->|N].
    + destruct (i_job _ _ _ _ _ _ I id m lv q b off size) as (t1 & p1 & n1 & K1 & Eq); [left; auto|]. do 6 eexists. apply SD. eauto.
    + rewrite Lo in K by auto. destruct (i_from _ _ _ _ _ _ I i) as (t & m' & lv' & p' & b' & n' & A); [destruct K as [K|(td & K)]; [auto|right; exists td; apply SN; auto]|]. do 6 eexists. apply SD. eauto.
Qed.

Lemma inv_done isp m0 ls l tr ids id m lv q b off size rest : (forall t e, In (t, e) tr -> (t < length ls)%nat) -> inv isp m0 ls tr (Job id m lv q b off size :: rest) ids -> size <= 0 ->
  inv isp m0 (ls ++ [l]) ((length ls, EDone id) :: tr) rest ids.
Proof.
  intros Ht I Hs. pose proof (i_sorted _ _ _ _ _ _ I) as So. inversion So as [|? ? So' Fo]; subst. cbn [j_id] in Fo. rewrite Forall_forall in Fo.
  assert (SD : forall t i m' lv' p b n on, In (t, EDump i m' lv' p b n on) ((length ls, EDone id) :: tr) <-> In (t, EDump i m' lv' p b n on) tr).
  { intros. split; [intros [K|K]; [discriminate|auto]|intros K; right; auto]. }
  assert (SL : forall i, lines_of i ((length ls, EDone id) :: tr) = lines_of i tr) by reflexivity.
  assert (SN : forall t i, i <> id -> In (t, EDone i) ((length ls, EDone id) :: tr) <-> In (t, EDone i) tr).
  { intros t i N. split; [intros [K|K]; [congruence|auto]|intros K; right; auto]. }
  destruct (i_job _ _ _ _ _ _ I id m lv q b off size) as (t1 & p1 & n1 & K1 & Eq); [left; auto|].
  constructor; auto.
  - pose proof (i_below _ _ _ _ _ _ I) as B. inversion B; auto.
  - intros t i m' lv' p' b' n' on' K. apply SD in K. eapply (i_ids _ _ _ _ _ _ I); eauto.
  - intros i t' m1 lv1 p' b1 n' on1 t2 m2 lv2 p2 b2 n2 on2 K K'. apply SD in K, K'. eapply (i_once _ _ _ _ _ _ I); eauto.
  - intros t i m' lv' p' b' n' K. apply SD in K. pose proof (i_told _ _ _ _ _ _ I _ _ _ _ _ _ _ K) as T. destruct (Nat.eq_dec i id) as [->|N].
    + pose proof (i_once _ _ _ _ _ _ I _ _ _ _ _ _ _ _ _ _ _ _ _ _ _ K K1) as E. injection E as -> -> -> -> -> ->.
      destruct T as (T1 & T2 & T3). destruct T3 as [(off' & size' & H1 & H2 & H3)|(td & _ & _ & _ & _ & _ & H6)]; [|exfalso; apply (H6 (Job id m lv q b off size)); [left; auto|auto]].
      assert (Job id m lv (prefix_text p1) b off' size' = Job id m lv q b off size) as E by (exact (head_only _ (Job id m lv q b off size) rest _ So eq_refl H1 eq_refl)). injection E as _ -> ->.
      unfold told. rewrite SL. split; auto. split.
      * intros k t2 m2 lv2 text2 E. destruct (T2 k t2 m2 lv2 text2 E) as (A & B & C' & D). repeat split; auto; [apply D; auto|]. destruct D as (_ & dt & D1 & D2); auto. exists dt. split; auto.
        rewrite firstn_app. assert (t2 < length ls)%nat by (apply nth_error_In in E; apply in_rev, line_in in E; eauto). replace (t2 - length ls)%nat with 0%nat by lia. cbn [firstn]. rewrite app_nil_r. auto.
      * right. exists (length ls). split; [left; auto|]. split; [intros td' [X|X]; [congruence|exfalso; eapply H2; eauto]|]. split; [eauto|].
        split; [intros (((t', m'), lv'), tx) Hx; apply line_in in Hx; cbn; eauto|]. split; [intros Hin; pose proof (H3 Hin); lia|]. intros j Hj X. specialize (Fo j Hj). lia.
    + eapply told_other; eauto. intros j Hj. cbn [In]. split; auto. intros [X|X]; auto. subst j. cbn in Hj. congruence.
  - intros t i m' lv' p' b' n' K. apply SD in K. destruct (i_off _ _ _ _ _ _ I _ _ _ _ _ _ _ K) as (A & B). rewrite SL. split; auto. intros td [X|X]; [|eapply B; eauto].
    injection X as <- <-. pose proof (i_once _ _ _ _ _ _ I _ _ _ _ _ _ _ _ _ _ _ _ _ _ _ K K1). congruence.
  - intros i m' lv' q' b' off' size' K. destruct (i_job _ _ _ _ _ _ I i m' lv' q' b' off' size') as (t2 & p2 & n2 & K2 & Eq2); [right; auto|]. exists t2, p2, n2. split; auto. right. auto.
  - intros i K. destruct (Nat.eq_dec i id) as [->|N]; [do 6 eexists; right; eauto|].
    rewrite SL in K. destruct (i_from _ _ _ _ _ _ I i) as (t & m' & lv' & p' & b' & n' & A); [destruct K as [K|(td & K)]; [auto|right; exists td; apply SN; auto]|]. do 6 eexists. right. eauto.
Qed.

Lemma bytes_prefix m0 ls l : bytes_only m0 (ls ++ [l]) -> bytes_only m0 ls.
Proof. intros (A & B). split; auto. intros b i v K. apply (B b i v). apply in_or_app. auto. Qed.

Theorem inv_run fuel d isp c0 m0 x0 ls s : nth_error (c_mods c0) 0 = Some x0 -> isp 0 = false -> run fuel d isp (r_start c0 m0) ls = Some (Ok s) -> bytes_only m0 ls ->
  inv isp m0 ls (r_trace s) (jobs (r_stack s)) (r_ids s).
Proof.
  intros E0 Hi. apply (run_ind fuel d isp (r_start c0 m0) (fun ls s => bytes_only m0 ls -> inv isp m0 ls (r_trace s) (jobs (r_stack s)) (r_ids s))); clear ls s.
  - intros _. cbn. constructor; cbn; [constructor|constructor|intros; contradiction..|]. intros id [K|(td & K)]; contradiction.
  - intros ls s l s' R IH St Bo. specialize (IH (bytes_prefix _ _ _ Bo)). apply bytes_prefix in Bo. destruct (basic_run _ _ _ _ _ _ _ _ E0 R) as (Hc & Hm & Ht & Htr & x & Ex).
    destruct (step_effect fuel d isp l s s' x Ex St) as (evs & js & ids & Ef & (A1 & A2 & A3 & A4 & A5 & A6)). rewrite A3, A4, A6, Ht. inversion Ef; subst.
    + cbn [map app]. eapply inv_same; eauto using same_refl.
    + eapply inv_same; eauto. apply same_msg. eapply handled_calls; eauto.
    + cbn [map app]. apply inv_begin; auto.
    + match goal with H : jobs (r_stack s) = _ |- _ => rewrite H in IH end. rewrite Hm in *. eapply inv_line; eauto using handled_calls.
    + match goal with H : jobs (r_stack s) = _ |- _ => rewrite H in IH end. cbn [map app]. eapply inv_done; eauto.
Qed.
