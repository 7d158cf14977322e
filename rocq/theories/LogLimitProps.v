(* C67, C83 and C84 once more: what becomes of messages which cannot be formatted or are too long for an int,
   and of long timestamps *)
From Coq Require Import String List ZifyBool.
From Verif Require Import Base HexModel HexSpec HexProofs LogModel LogSpec LogProofs LogProofs2 LogProofs3 LogProps.
Import ListNotations.
Open Scope Z_scope.

(* the text fits an int together with its NUL *)
Definition short (f : fmt) : Prop := match f with FText t => len t < 2^31 - 1 | FError => False end.
Definition too_large (d : dialect) : fault := match d with Strict => SignedOverflow | Wrap => AllocAbort end.

Lemma format_long d h f fuel : ~ short f -> (22 <= fuel)%nat -> format fuel d h (malloc 512) f = Fail (too_large d).
Proof.
  intros Hs Hf. destruct f as [t|].
  - cbn [short] in Hs. destruct (Z.eq_dec (len t) (2^31 - 1)) as [E|N].
    + rewrite C67_max; [reflexivity|exact E|lia].
    + rewrite C67_overflow; [reflexivity| |exact Hf]. cbn [hopeless]. unfold INT_MAX. lia.
  - apply C67_overflow; [exact I|exact Hf].
Qed.

(* A message is formatted exactly if it is shorter than INT_MAX; otherwise the size overflows *)
Theorem C67_exact d h f fuel : (22 <= fuel)%nat ->
  (short f -> exists x, format fuel d h (malloc 512) f = Ok x) /\
  (~ short f -> format fuel d h (malloc 512) f = Fail (match d with Strict => SignedOverflow | Wrap => AllocAbort end)).
Proof.
  intros Hf. split.
  - intros Hs. destruct f as [t|]; [|destruct Hs]. destruct (format_text d h (malloc 512) t Hs) as (h' & buf' & b & r & E & _). rewrite E by lia. eauto.
  - intros Hs. exact (format_long d h f fuel Hs Hf).
Qed.
Print Assumptions C67_exact.

(* Output to stdout and stderr: what is undefined, what overflows. C83_line_partial has the remaining case. *)
Theorem C83_exact d h (ts : bool) l s expansion tid name level f fuel : t_run t_start l = Ok s -> (22 <= fuel)%nat ->
  let long := ts = true /\ format_after l <> [] /\ 32 <= len (expansion (format_after l)) in
  (long -> stdio fuel d h ts s expansion tid name level f = Fail UninitRead) /\
  (~ long -> ~ short f -> stdio fuel d h ts s expansion tid name level f = Fail (match d with Strict => SignedOverflow | Wrap => AllocAbort end)).
Proof.
  intros R Hf long. destruct (C68_lifetime l) as (s' & R' & C & _). rewrite R in R'. injection R' as <-. unfold long, stdio, timestamp. split.
  - intros (-> & Hne & He). rewrite C. cbn [bind]. destruct (format_after l) as [|c g]; [congruence|]. cbv zeta.
    destruct (Z.ltb_spec (len (expansion (c :: g))) 32); [lia|]. reflexivity.
  - intros N Hs. rewrite (format_long d h f fuel Hs Hf). destruct ts; [|reflexivity]. rewrite C. cbn [bind].
    destruct (format_after l) as [|c g]; [reflexivity|]. cbv zeta. destruct (Z.ltb_spec (len (expansion (c :: g))) 32); [reflexivity|].
    exfalso. apply N. split; [reflexivity|]. split; [discriminate|lia].
Qed.
Print Assumptions C83_exact.

(* Output to syslog: a message without tags goes to vsyslog as it is, whatever its length. *)
Theorem C84_exact d h dname tid name level f fuel : ~ short f -> (22 <= fuel)%nat ->
  let plain := tid = None /\ (name = None \/ name = Some [] \/ name = dname) /\ level <> 1 /\ level <> 2 in
  (plain -> syslog fuel d h dname tid name level f = Ok (h, syslog_priority level, match f with FText t => Some t | FError => None end)) /\
  (~ plain -> syslog fuel d h dname tid name level f = Fail (match d with Strict => SignedOverflow | Wrap => AllocAbort end)).
Proof.
  intros Hs Hf plain. pose proof (format_long d h f fuel Hs Hf) as E. unfold too_large in E.
  set (shown := match named name with Some n => if strcmp0_eq (Some n) dname then None else Some n | None => None end).
  assert (Hsh : shown = None <-> (name = None \/ name = Some [] \/ name = dname)).
  { unfold shown. destruct name as [[|c n]|]; cbn [named]; [split; auto| |split; auto].
    destruct dname as [dn|].
    - destruct (strcmp0_eq (Some (c :: n)) (Some dn)) eqn:Es.
      + apply strcmp0_spec in Es. subst dn. split; auto.
      + split; [discriminate|]. intros [X|[X|X]]; try discriminate. injection X as <-. assert (Y : strcmp0_eq (Some (c :: n)) (Some (c :: n)) = true) by (apply strcmp0_spec; auto). congruence.
    - split; [discriminate|]. intros [X|[X|X]]; discriminate. }
  assert (Hpx : syslog_prefix level = None <-> level <> 1 /\ level <> 2).
  { unfold syslog_prefix, WARN, ERR. destruct (Z.eqb_spec level 2), (Z.eqb_spec level 1); split; intros H; try discriminate; try lia; auto. }
  unfold plain, syslog. fold shown. rewrite E. split.
  - intros (-> & Hn & Hl). apply Hsh in Hn. apply Hpx in Hl. rewrite Hn, Hl. reflexivity.
  - intros N. destruct shown as [x|]; [reflexivity|]. destruct (syslog_prefix level) as [p|]; [reflexivity|]. destruct tid as [t|]; [reflexivity|].
    exfalso. apply N. split; [reflexivity|]. split; [apply Hsh; reflexivity|]. apply Hpx. reflexivity.
Qed.
Print Assumptions C84_exact.

Example C83_example_exact : ~ short FError /\ (exists t, ~ short (FText t)) /\
  exists s, t_run t_start [Some (chars "%A %d %B %Y, %H:%M:%S ")] = Ok s /\
    stdio 22 Strict [] true s (fun _ => chars "Wednesday 16 September 2026, 12:00:00 ") None None 3 (FText (chars "hello")) = Fail UninitRead.
Proof.
  split; [intros []|]. split.
  - assert (exists z, z = 2 ^ 31) as (z & Hz) by eauto. exists (repeat 97 (Z.to_nat z)). cbn [short]. unfold len. rewrite repeat_length. lia.
  - eexists. split; [vm_compute; reflexivity|]. reflexivity.
Qed.
Example C84_example_exact : syslog 22 Strict [] None None None 3 FError = Ok ([], 5, None) /\ syslog 22 Strict [] None None None 2 FError = Fail SignedOverflow.
Proof. split; [reflexivity|]. apply C84_exact; [intros []|lia|]. intros (_ & _ & _ & X). congruence. Qed.
