(** Property C72: positions stay within the text they were computed from. *)
From Coq Require Import String.
From Verif Require Import Base BaseFacts Utf8 StrOps Corr Table Charset Position Converter Reducer TrimMod Neologdn ModifierKind ChanomaModel
  CharSpec Spec ConverterFacts ConverterProps SimpleFacts SimpleProps PropsConverter PropsSimple NeoFacts NeoProps PropsNeo PropsPipeline
  NeoSpec NeoMore PropsNeoMore Utf8Props CsvProps.
Local Open Scope string_scope.
Local Open Scope list_scope.

(** No number of an entry exceeds the length of the text. *)
Definition within (s : str) (p : position) : Prop :=
  p_index p <= bytes s /\ p_length p <= bytes s /\ p_utf8_index p <= bytes s /\ p_utf8_length p <= length s /\
  p_from p <> [] /\ length (p_from p) <= length s.
Lemma bytes_firstn n s : bytes (firstn n s) <= bytes s.
Proof. unfold bytes. rewrite !encode_length. rewrite <- (firstn_skipn n s) at 2. rewrite blen_app. lia. Qed.
Lemma bytes_length s : length s <= bytes s.
Proof. unfold bytes. rewrite encode_length. apply blen_ge_length. Qed.
Lemma collapsed_bytes c s out : collapsed c s out -> bytes out <= bytes s.
Proof.
  unfold bytes. induction 1 as [|x s out N H IH|n s out N _ H IH]; [reflexivity| |]; rewrite !encode_length in *.
  - unfold blen in *. cbn [fold_right]. lia.
  - rewrite blen_app, blen_repeat. change (blen (c :: out)) with (len_utf8 c + blen out). destruct n; [lia|].
    rewrite Nat.mul_succ_r. lia.
Qed.
Lemma within_one o m s r : constructible m -> normalize_with_positions o [m] s = Ok [r] -> Forall (within s) (r_positions r).
Proof.
  intros C H. apply Forall_forall. intros p Hp. destruct m as [cc|el|c| |l| |n].
  - destruct (normalize_with_positions_conv o cc s) as (ps & E & P). rewrite E in H. apply Ok_inj in H. injection H as <-. cbn [r_positions] in Hp.
    pose proof (proj2 (exact_positions_conv cc s ps P) p) as Q. apply Q in Hp.
    destruct Hp as (i & c & t & N & _ & F & _ & I & U & L & UL). unfold within. rewrite F, I, U, L, UL.
    assert (Hi : i < length s) by (apply nth_error_Some; congruence). pose proof (bytes_length s) as B.
    pose proof (bytes_firstn i s) as B'. fold (bytes (firstn i s)). fold (bytes [c]).
    assert (Bc : bytes [c] <= bytes s).
    { apply nth_error_split in N as (l1 & l2 & -> & _). unfold bytes. rewrite !encode_length, !blen_app. cbn. lia. }
    cbn [length]. repeat split; try lia; discriminate.
  - unfold normalize_with_positions in H. cbn in H. injection H as <-. destruct Hp.
  - destruct (C12_reduction_texts_agree o c s) as (out & ps & E & _). rewrite E in H. apply Ok_inj in H. injection H as <-. cbn [r_positions] in Hp.
    destruct (C13_one_position_per_run o c s out ps E) as (rs & R & F). destruct (C14_positions_exact o c s out ps E) as (rs' & R' & F').
    assert (G : exists i n, maximal_run c s i n /\ p_from p = cut i n s /\ p_length p <= bytes s /\ p_utf8_length p = n).
    { destruct R as [_ R]. clear - F Hp R. assert (A : forall x, In x rs -> maximal_run c s (fst x) (snd x)) by (intros [i n] X; apply R; exact X).
      clear R. induction F as [|[i n] q rs ps X F IH]; [destruct Hp|].
      destruct Hp as [->|Hp].
      - exists i, n. split; [apply (A (i, n)); left; reflexivity|]. unfold bytes. tauto.
      - apply IH; [exact Hp|]. intros x Hx. apply A. right. exact Hx. }
    assert (G' : exists i n, maximal_run c s i n /\ p_index p <= bytes s /\ p_utf8_index p <= bytes s).
    { destruct R' as [_ R']. clear - F' Hp R'. assert (A : forall x, In x rs' -> maximal_run c s (fst x) (snd x)) by (intros [i n] X; apply R'; exact X).
      clear R'. induction F' as [|[i n] q rs ps ((out' & Co & I) & X1 & X2) F IH]; [destruct Hp|].
      destruct Hp as [->|Hp].
      - exists i, n. pose proof (A (i, n) (or_introl eq_refl)) as M. cbn [fst snd] in M. split; [exact M|]. split.
        + rewrite I. apply collapsed_bytes in Co. pose proof (bytes_firstn (i + n) s). unfold bytes in *. lia.
        + destruct M as (_ & L & _). destruct (Nat.eq_dec (i + n) (length s)) as [Q|Q].
          * apply X2 in Q. unfold bytes. lia.
          * rewrite X1 by lia. pose proof (bytes_length s). lia.
      - apply IH; [exact Hp|]. intros x Hx. apply A. right. exact Hx. }
    destruct G as (i & n & M & G1 & G2 & G3). destruct G' as (_ & _ & _ & G4 & G5). destruct M as (M1 & M2 & M3 & _).
    unfold within. rewrite G1, M3, G3, repeat_length. repeat split; try assumption; try lia. destruct n; [lia|discriminate].
  - unfold normalize_with_positions in H. cbn in H. injection H as <-. destruct Hp.
  - unfold normalize_with_positions in H. cbn in H. injection H as <-. destruct Hp.
  - destruct (C18_trim_positions_exact o s) as (a & out & b & T & E & _). rewrite E in H. apply Ok_inj in H. injection H as <-. cbn [r_positions] in Hp.
    destruct T as (T & _). pose proof (f_equal (@length char) T) as TL. rewrite !app_length, !repeat_length in TL.
    assert (TB : bytes s = a + (bytes out + b)).
    { rewrite T at 1. unfold bytes. rewrite !encode_length, !blen_app. change space with SPACE. rewrite !blen_spaces. reflexivity. }
    unfold trim_positions in Hp. apply in_app_iff in Hp as [Hp|Hp].
    + destruct (Nat.eqb_spec a 0) as [|A]; [destruct Hp|]. destruct Hp as [<-|[]]. unfold within. cbn [p_index p_length p_utf8_index p_utf8_length p_from].
      rewrite repeat_length. repeat split; try lia. destruct a; [lia|discriminate].
    + destruct (Nat.eqb_spec b 0) as [|B]; [destruct Hp|]. destruct Hp as [<-|[]]. unfold within. cbn [p_index p_length p_utf8_index p_utf8_length p_from].
      rewrite app_length, !repeat_length. fold (bytes (repeat space a ++ out)).
      assert (TB' : bytes (repeat space a ++ out) = a + bytes out).
      { unfold bytes. rewrite !encode_length, !blen_app. change space with SPACE. rewrite !blen_spaces. reflexivity. }
      pose proof (bytes_length out). repeat split; try lia. destruct b; [lia|discriminate].
  - destruct (C n eq_refl) as (o' & E). assert (Z : chanoma_neologdn o' = Ok [MNeo n]) by (unfold chanoma_neologdn; rewrite E; reflexivity).
    destruct (C29_no_positions o' _ Z o s) as (m' & out & E'). rewrite E' in H. apply Ok_inj in H. injection H as <-. destruct Hp.
Qed.
(** ** C72 *)
(** In every stage of every run, every entry lies within the text the stage was given (so no number overflows). *)
Theorem C72_within_text : forall o c s rs, Forall constructible c -> normalize_with_positions o c s = Ok rs ->
  forall i r t, nth_error rs i = Some r -> nth_error (s :: map r_text rs) i = Some t -> Forall (within t) (r_positions r).
Proof.
  intros o c s rs C H. destruct (C31_records_every_stage o c s C) as (rs' & E & S & _). rewrite H in E. apply Ok_inj in E. subst rs'. clear H.
  revert s rs S. induction C as [|m c M C IH]; intros s [|r rs] S i x t Hx Ht; cbn [stages] in S; try contradiction.
  - destruct i; discriminate.
  - destruct S as (_ & _ & (o' & W) & S). destruct i as [|i].
    + cbn in Hx, Ht. injection Hx as <-. injection Ht as <-. exact (within_one o' m s r M W).
    + cbn [nth_error map] in Hx, Ht. exact (IH (r_text r) rs S i x t Hx Ht).
Qed.
Print Assumptions C72_within_text.
(** But an entry's range may end behind the text: taking [index .. index + length] panics there. *)
Theorem C72_range_within_refuted : exists o c s rs r p, normalize_with_positions o [MRed c] s = Ok rs /\ In r rs /\ In p (r_positions r) /\
  bytes s < p_index p + p_length p.
Proof.
  exists no_order, 97%N, (lit "aa"). eexists. eexists. eexists. split; [vm_compute; reflexivity|]. split; [left; reflexivity|].
  split; [left; reflexivity|]. vm_compute. lia.
Qed.
Print Assumptions C72_range_within_refuted.
(** For ASCII texts the two numberings of table and trim entries coincide, and both cut [from] out of the text. *)
Definition ascii (s : str) : Prop := Forall (fun c => (c < 0x80)%N) s.
Lemma ascii_encode s : ascii s -> encode s = s.
Proof.
  induction 1 as [|c s H _ IH]; [reflexivity|]. change (encode (c :: s)) with (encode_char c ++ encode s). rewrite IH.
  destruct (enc_bytes c) as [[_ E]|[G _]]; [rewrite E; reflexivity|]. exfalso. revert H G. unfold char. lia.
Qed.
Lemma ascii_firstn n s : ascii s -> ascii (firstn n s).
Proof. unfold ascii. rewrite <- (firstn_skipn n s) at 1. rewrite Forall_app. tauto. Qed.
Theorem C72_ascii_offsets : forall o t c s m out ps p, ascii s -> chanoma_from_table t = Ok c \/ c = [MTrim] ->
  normalize_with_positions o c s = Ok [Record m out ps] -> In p ps ->
  p_index p = p_utf8_index p /\ p_length p = p_utf8_length p /\ cut (p_index p) (p_length p) s = p_from p.
Proof.
  intros o t c s m out ps p A [H| ->] E Hp.
  - destruct (C02_positions_exact o t c s H) as (out' & ps' & m' & E' & _ & X & P). rewrite E in E'. apply Ok_inj in E'. injection E' as <- <- <-.
    apply P in Hp as Q. destruct Q as (i & ch & u & N & _ & F & _ & I & U & L & UL).
    destruct (C19_conversion_index_is_char_index o t c s m out ps p H E Hp) as [_ K].
    assert (L1 : p_length p = p_utf8_length p).
    { rewrite L, UL. assert (Z : ascii [ch]) by (apply nth_error_In in N; constructor; [|constructor]; unfold ascii in A; rewrite Forall_forall in A; apply A, N).
      rewrite (ascii_encode _ Z). reflexivity. }
    split; [|split; [exact L1|rewrite L1; exact K]]. rewrite I, U, (ascii_encode _ (ascii_firstn i s A)), firstn_length.
    assert (i < length s) by (apply nth_error_Some; congruence). lia.
  - destruct (C18_trim_positions_exact o s) as (a & out' & b & T & E' & _). rewrite E in E'. apply Ok_inj in E'. injection E' as -> -> ->.
    destruct (C18_trim_positions_replay o s out' _ E) as (_ & _ & K). destruct (K p Hp) as (_ & _ & K1 & _).
    assert (Z : p_index p = p_utf8_index p /\ p_length p = p_utf8_length p).
    { unfold trim_positions in Hp. apply in_app_iff in Hp as [Hp|Hp].
      - destruct (Nat.eqb a 0); [destruct Hp|]. destruct Hp as [<-|[]]. auto.
      - destruct (Nat.eqb b 0); [destruct Hp|]. destruct Hp as [<-|[]]. cbn. split; [|reflexivity].
        destruct T as (T & _). rewrite ascii_encode; [reflexivity|]. unfold ascii in *. rewrite T, app_assoc in A. apply Forall_app in A. apply A. }
    destruct Z as [Z1 Z2]. rewrite Z1, Z2. auto.
Qed.
Print Assumptions C72_ascii_offsets.
Example C72_case :
  normalize_with_positions no_order [MTrim; MConv [(97, 0x3042)]%N; MRed 0x3042%N] (lit " aab ") =
  Ok [Record MTrim (lit "aab") [Pos (lit " ") [] 0 1 0 1; Pos (lit " ") [] 4 1 4 1];
      Record (MConv [(97, 0x3042)]%N) [0x3042; 0x3042; 98]%N [Pos (lit "a") [0x3042]%N 0 1 0 1; Pos (lit "a") [0x3042]%N 1 1 1 1];
      Record (MRed 0x3042%N) [0x3042; 98]%N [Pos [0x3042; 0x3042]%N [0x3042]%N 3 6 2 2]] /\
  Forall constructible [MTrim; MConv [(97, 0x3042)]%N; MRed 0x3042%N] /\ ascii (lit " aab ").
Proof. split; [vm_compute; reflexivity|]. split; [repeat constructor; discriminate|repeat constructor]. Qed.
