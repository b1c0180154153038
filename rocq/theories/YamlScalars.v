(** Facts about single YAML scalars: what is read as a text, a number, a truth value or nothing. *)
From Coq Require Import String.
From Verif Require Import Base StrOps Yaml YamlText BaseFacts YamlTextFacts YamlSpec.
Local Open Scope string_scope.
Local Open Scope list_scope.

Lemma starts_with_app p s : starts_with p s = true -> exists r, s = p ++ r.
Proof.
  revert s. induction p as [|x p IH]; intros s H; [exists s; reflexivity|]. destruct s as [|y s]; [discriminate H|]. cbn [starts_with] in H.
  apply andb_true_iff in H as [E H]. apply N.eqb_eq in E. subst y. destruct (IH s H) as [r ->]. exists r. reflexivity.
Qed.
Lemma radix_based s : radix_text s = true -> based_number s.
Proof.
  unfold radix_text. intros H.
  assert (D : exists sign, (sign = [] \/ sign = lit "+" \/ sign = lit "-") /\ s = sign ++ skip_sign s).
  { destruct s as [|c r]; [exists []; auto|]. cbn [skip_sign]. destruct (in_text "+-" c) eqn:E; [|exists []; auto].
    exists [c]. split; [|reflexivity]. apply existsb_exists in E as (x & I & Q). apply N.eqb_eq in Q. subst x. right. vm_compute in I |- *. intuition (subst; auto). }
  destruct D as (sign & D & E). rewrite !orb_true_iff in H. destruct H as [[H|H]|H]; apply starts_with_app in H as [r H]; rewrite H in E;
    exists sign; eexists; exists r; (split; [exact D|]); (split; [|exact E]); auto.
Qed.
(** ** Numbers *)
Lemma is_digit_iff c : is_digit c = true <-> digit c.
Proof. unfold is_digit, digit. rewrite andb_true_iff, !N.leb_le. reflexivity. Qed.
Definition no_digit_first (r : str) : Prop := match r with c :: _ => ~ digit c | [] => True end.
Lemma skip_digits_app ds r : Forall digit ds -> no_digit_first r -> skip_digits (ds ++ r) = r.
Proof.
  intros F N. induction F as [|c ds H F IH]; cbn [app].
  - destruct r as [|c r]; [reflexivity|]. cbn [skip_digits no_digit_first] in *. destruct (is_digit c) eqn:E; [apply is_digit_iff in E; destruct (N E)|reflexivity].
  - cbn [skip_digits]. rewrite (proj2 (is_digit_iff c) H). exact IH.
Qed.
Lemma skip_digits_parts s : exists ds, s = ds ++ skip_digits s /\ Forall digit ds /\ no_digit_first (skip_digits s).
Proof.
  induction s as [|c s (ds & E & F & N)]; [exists []; split; [reflexivity|split; [constructor|exact I]]|]. cbn [skip_digits]. destruct (is_digit c) eqn:D.
  - exists (c :: ds). split; [cbn [app]; f_equal; exact E|]. split; [constructor; [apply is_digit_iff, D|exact F]|exact N].
  - exists []. split; [reflexivity|]. split; [constructor|]. intros Q. apply is_digit_iff in Q. congruence.
Qed.
Lemma shorter_app (ds r : str) : shorter r (ds ++ r) = true <-> ds <> [].
Proof.
  unfold shorter. rewrite Nat.ltb_lt, app_length. destruct ds as [|c ds]; cbn [List.length]; split; try lia; try congruence; discriminate.
Qed.
Lemma in_text_iff t c : in_text t c = true <-> In c (lit t).
Proof. unfold in_text. rewrite existsb_exists. split; [intros (x & I & E); apply N.eqb_eq in E; subst x; exact I|intros I; exists c; split; [exact I|apply N.eqb_refl]]. Qed.
Lemma sign_parts s : exists g, sign g /\ s = g ++ skip_sign s /\ match skip_sign s with c :: _ => g = [] -> c <> 0x2B%N /\ c <> 0x2D%N | [] => True end.
Proof.
  destruct s as [|c r]; [exists []; split; [left; reflexivity|split; [reflexivity|exact I]]|]. cbn [skip_sign]. destruct (in_text "+-" c) eqn:E.
  - exists [c]. apply in_text_iff in E. vm_compute in E. destruct E as [<-|[<-|[]]]; (split; [unfold sign; auto|]); (split; [reflexivity|]); destruct r; auto; discriminate.
  - exists []. split; [left; reflexivity|]. split; [reflexivity|]. intros _. split; intros ->; discriminate E.
Qed.
Lemma skip_sign_app g r : sign g -> (g = [] -> match r with c :: _ => c <> 0x2B%N /\ c <> 0x2D%N | [] => True end) -> skip_sign (g ++ r) = r.
Proof.
  intros [-> |[-> | ->]] H; try reflexivity. destruct r as [|c r]; [reflexivity|]. specialize (H eq_refl). cbn [app skip_sign]. destruct (in_text "+-" c) eqn:E; [|reflexivity].
  apply in_text_iff in E. vm_compute in E. destruct H as [H1 H2]. destruct E as [E|[E|[]]]; congruence.
Qed.
Lemma digit_first_sign ds r : Forall digit ds -> ds <> [] -> match ds ++ r with c :: _ => c <> 0x2B%N /\ c <> 0x2D%N | [] => True end.
Proof. intros F N. destruct F as [|c ds H F]; [destruct N; reflexivity|]. cbn [app]. unfold digit in H. lia. Qed.
Definition exponent (x : str) : Prop := x = [] \/ exists e g ds, x = [e] ++ g ++ ds /\ (e = 0x65%N \/ e = 0x45%N) /\ sign g /\ Forall digit ds /\ ds <> [].
Lemma exponent_iff x : exponent_only x = true <-> exponent x.
Proof.
  destruct x as [|c r]; [split; [intros _; left; reflexivity|reflexivity]|]. cbn [exponent_only]. rewrite !andb_true_iff, N.eqb_eq.
  assert (L : lower c = 0x65%N <-> c = 0x65%N \/ c = 0x45%N).
  { unfold lower. destruct (N.leb 0x41 c && N.leb c 0x5A)%bool eqn:E; [rewrite andb_true_iff, !N.leb_le in E|rewrite andb_false_iff, !N.leb_gt in E]; lia. }
  rewrite L. destruct (sign_parts r) as (g & G & E & N). destruct (skip_digits_parts (skip_sign r)) as (ds & D & F & ND). split.
  - intros (Le & Sh & Em). right. exists c, g, ds. rewrite D in Sh at 2. apply shorter_app in Sh. destruct (skip_digits (skip_sign r)) as [|x y]; [|discriminate Em]. rewrite app_nil_r in D.
    split; [cbn [app]; f_equal; congruence|auto].
  - intros [Q|(e & g' & ds' & Q & Le & G' & F' & Ne)]; [discriminate Q|]. injection Q as -> ->. split; [exact Le|]. clear g G E N ds D F ND.
    rewrite (skip_sign_app g' ds' G'); [|intros _; rewrite <- (app_nil_r ds'); apply digit_first_sign; assumption].
    rewrite <- (app_nil_r ds') at 1 3. rewrite skip_digits_app by (exact F' || exact I). split; [|reflexivity]. destruct ds'; [destruct Ne; reflexivity|reflexivity].
Qed.
Lemma exponent_first x : exponent x -> match x with c :: _ => c = 0x65%N \/ c = 0x45%N | [] => True end.
Proof. intros [-> |(e & g & ds & -> & H & _)]; [exact I|exact H]. Qed.
Lemma decimal_iff s : (let r := skip_digits s in
   match r with
   | c :: r' => if N.eqb c DOT then let e := skip_digits r' in (shorter r s || shorter e r') && exponent_only e
                else shorter r s && exponent_only r
   | [] => shorter r s
   end)%bool = true <-> decimal s.
Proof.
  cbn zeta. split.
  - destruct (skip_digits_parts s) as (ds & D & F & ND). destruct (skip_digits s) as [|c r'] eqn:E.
    + intros H. rewrite D in H. apply shorter_app in H. exists ds, [], []. rewrite D. split; [reflexivity|]. auto.
    + destruct (N.eqb c DOT) eqn:P.
      * apply N.eqb_eq in P. subst c. destruct (skip_digits_parts r') as (ds2 & D2 & F2 & ND2). rewrite andb_true_iff, orb_true_iff. intros [H X]. apply exponent_iff in X.
        exists ds, (lit "." ++ ds2), (skip_digits r'). split; [rewrite D, D2 at 1; rewrite <- app_assoc; reflexivity|]. split; [exact F|]. split; [right; exists ds2; split; [reflexivity|]; split; [exact F2|]|exact X].
        intros Q. apply app_eq_nil in Q as [-> ->]. cbn [app] in D2. destruct H as [H|H].
        -- rewrite D in H. apply (shorter_app [] (DOT :: r')) in H. destruct H; reflexivity.
        -- rewrite <- D2 in H. apply (shorter_app [] r') in H. destruct H; reflexivity.
      * rewrite andb_true_iff. intros [H X]. apply exponent_iff in X. rewrite D in H. apply shorter_app in H. exists ds, [], (c :: r'). split; [rewrite D at 1; reflexivity|]. auto.
  - intros (before & after & x & -> & F & A & X). pose proof (exponent_first x X) as XF. apply exponent_iff in X.
    assert (NX : no_digit_first x) by (destruct x as [|c x]; [exact I|]; cbn; unfold digit; lia).
    destruct A as [[-> Ne]|(ds & -> & F2 & Ne)]; cbn [app].
    + rewrite skip_digits_app by assumption. assert (Sh : shorter x (before ++ x) = true) by (apply shorter_app, Ne). destruct x as [|c x]; [exact Sh|].
      replace (N.eqb c DOT) with false by (destruct XF as [-> | ->]; reflexivity). rewrite Sh, X. reflexivity.
    + change (lit "." ++ ds) with (DOT :: ds). cbn [app]. rewrite skip_digits_app; [|exact F|cbn; unfold digit, DOT; lia]. change (N.eqb DOT DOT) with true. cbn iota. rewrite skip_digits_app by assumption. rewrite X, andb_true_r. apply orb_true_iff.
      rewrite (shorter_app ds x). destruct before as [|b before]; [right; exact Ne|left]. apply (shorter_app (b :: before)). discriminate.
Qed.
Lemma any_case_iff w : forallb (fun c => N.leb 0x61 c && N.leb c 0x7A)%bool w = true -> forall s, str_eqb (map lower s) w = true <-> any_case s w.
Proof.
  intros W s. rewrite str_eqb_eq. unfold any_case. revert s. induction w as [|d w IH]; intros s.
  - split; intros H; [destruct s; [constructor|discriminate H]|inversion H; reflexivity].
  - cbn [forallb] in W. apply andb_true_iff in W as [D W]. rewrite andb_true_iff, !N.leb_le in D. specialize (IH W). destruct s as [|c s]; [split; intros H; [discriminate H|inversion H]|]. cbn [map].
    assert (L : lower c = d <-> c = d \/ (c + 0x20 = d)%N).
    { unfold lower. destruct (N.leb 0x41 c && N.leb c 0x5A)%bool eqn:E; [rewrite andb_true_iff, !N.leb_le in E|rewrite andb_false_iff, !N.leb_gt in E]; lia. }
    split.
    + intros H. injection H as H1 H2. constructor; [apply L, H1|apply IH, H2].
    + intros H. inversion H as [|? ? ? ? H1 H2]. subst. f_equal; [apply L, H1|apply IH, H2].
Qed.
Lemma word_first w s : forallb (fun c => N.leb 0x61 c && N.leb c 0x7A)%bool w = true -> any_case s w -> match s with c :: _ => c <> 0x2B%N /\ c <> 0x2D%N | [] => True end.
Proof.
  intros W H. destruct H as [|c d s w H _]; [exact I|]. cbn [forallb] in W. apply andb_true_iff in W as [D _]. rewrite andb_true_iff, !N.leb_le in D. lia.
Qed.
Lemma decimal_first s : decimal s -> match s with c :: _ => c <> 0x2B%N /\ c <> 0x2D%N | [] => True end.
Proof.
  intros (b & a & x & -> & F & A & _). destruct b as [|c b]; [|apply (digit_first_sign (c :: b)); [exact F|discriminate]]. destruct A as [[-> Ne]|(ds & -> & _)]; [destruct Ne; reflexivity|]. cbn. split; discriminate.
Qed.
Lemma float_iff s : float_text s = true <-> float s.
Proof.
  unfold float_text. cbn zeta. rewrite !orb_true_iff, (decimal_iff (skip_sign s)), !any_case_iff by reflexivity.
  split.
  - intros H. destruct (sign_parts s) as (g & G & E & _). exists g, (skip_sign s). split; [exact E|]. split; [exact G|]. tauto.
  - intros (g & r & -> & G & H). rewrite skip_sign_app; [tauto|exact G|]. intros _. destruct H as [H|[H|[H|H]]]; [apply decimal_first, H|eapply word_first; [|exact H]; reflexivity..].
Qed.


(** ** Plain scalars *)
Lemma printable_iff c : printable c = true <-> shown c.
Proof. unfold printable, shown. rewrite orb_true_iff, !andb_true_iff, !negb_true_iff, !N.eqb_neq, !N.leb_le, N.ltb_lt. lia. Qed.
Lemma based_radix s : based_number s -> radix_text s = true.
Proof.
  intros (g & b & r & G & B & ->). unfold radix_text. assert (E : skip_sign (g ++ b ++ r) = b ++ r).
  { destruct G as [-> |[-> | ->]]; [|reflexivity|reflexivity]. destruct B as [-> |[-> | ->]]; reflexivity. }
  rewrite E. destruct B as [-> |[-> | ->]]; reflexivity.
Qed.
Lemma radix_iff s : radix_text s = true <-> based_number s.
Proof. split; [apply radix_based|apply based_radix]. Qed.
Lemma reserved_iff s : mem str_eqb s RESERVED = true <-> word s.
Proof.
  rewrite mem_In by apply str_eqb_eq. unfold word, RESERVED. rewrite !in_map_iff. split; intros (x & E & J); exists x; (split; [exact E|]); cbn [In] in J |- *; tauto.
Qed.
Lemma plain_text_iff s : plain_text s = true <-> exists c r, s = c :: r /\ ~ In c (lit " &*?|-<>=!%@") /\ last s c <> 0x20%N /\ Forall (fun x => shown x /\ ~ In x (lit ":{}[],#`'""\")) s.
Proof.
  destruct s as [|c r]; [split; [discriminate|intros (c & r & E & _); discriminate E]|]. unfold plain_text. rewrite !andb_true_iff, !negb_true_iff, N.eqb_neq, forallb_forall, <- (not_true_iff_false (in_text _ c)), in_text_iff.
  assert (A : In c (lit "-?&*!|<>=%@ ") <-> In c (lit " &*?|-<>=!%@")) by (vm_compute; tauto).
  assert (B : forall x, (printable x && negb (in_text ":#,[]{}`'""\" x))%bool = true <-> shown x /\ ~ In x (lit ":{}[],#`'""\")).
  { intros x. rewrite andb_true_iff, negb_true_iff, printable_iff, <- not_true_iff_false, in_text_iff. assert (Q : In x (lit ":#,[]{}`'""\") <-> In x (lit ":{}[],#`'""\")) by (vm_compute; tauto). tauto. }
  change SPACE with 0x20%N. rewrite A. split.
  - intros [[H1 H2] H3]. exists c, r. split; [reflexivity|]. split; [exact H1|]. split; [exact H2|]. apply Forall_forall. intros x I. apply B, H3, I.
  - intros (c' & r' & E & H1 & H2 & H3). injection E as <- <-. split; [split; assumption|]. intros x I. apply B. rewrite Forall_forall in H3. apply H3, I.
Qed.
Lemma starts_dot s : starts_with [DOT] s = true <-> exists r, s = 0x2E%N :: r.
Proof.
  destruct s as [|c r]; [split; [discriminate|intros (r & E); discriminate E]|]. cbn [starts_with]. rewrite andb_true_r, N.eqb_eq. change DOT with 0x2E%N. split; [intros <-; eauto|intros (r' & E); congruence].
Qed.
Lemma digit_any ds : Forall digit ds -> ds <> [] -> existsb is_digit ds = true.
Proof. intros F N. destruct F as [|c ds H F]; [destruct N; reflexivity|]. cbn [existsb]. rewrite (proj2 (is_digit_iff c) H). reflexivity. Qed.
Lemma case_no_digit s w : forallb (fun c => N.leb 0x61 c && N.leb c 0x7A)%bool w = true -> any_case s w -> existsb is_digit s = false.
Proof.
  intros W H. induction H as [|c d s w H F IH]; [reflexivity|]. cbn [forallb existsb] in *. apply andb_true_iff in W as [D W]. rewrite (IH W), orb_false_r. apply not_true_iff_false. rewrite is_digit_iff. unfold digit.
  rewrite andb_true_iff, !N.leb_le in D. lia.
Qed.
Lemma lower_e c : (c = 0x65 \/ c = 0x45)%N -> N.eqb (lower c) 0x65 = true.
Proof. intros [-> | ->]; reflexivity. Qed.
Lemma zero_first g ds fr : sign g -> Forall digit ds -> ds <> [] -> (fr = [] \/ exists f, fr = lit "." ++ f /\ Forall digit f) -> leading_zero (g ++ ds ++ fr) = false <-> (hd 0%N ds = 0x30%N -> ds = [0x30%N]).
Proof.
  intros G F N Fr. unfold leading_zero. rewrite (skip_sign_app g (ds ++ fr) G) by (intros _; apply digit_first_sign; assumption). destruct F as [|z ds Z F]; [destruct N; reflexivity|]. cbn [app hd].
  destruct F as [|d ds D F]; cbn [app].
  - destruct Fr as [-> |(f & -> & _)]; [split; [intros _ ->; reflexivity|reflexivity]|]. cbn [lit app list_ascii_of_string map]. split; [intros _ ->; reflexivity|]. intros _. destruct (N.eqb z 0x30); reflexivity.
  - rewrite (proj2 (is_digit_iff d) D), andb_true_r, N.eqb_neq. split; [intros H E; destruct (H E)|intros H E; specialize (H E); discriminate H].
Qed.
Lemma number_iff s : float_text s = true /\ existsb is_digit s = true /\ leading_zero s = false /\ starts_with [DOT] (skip_sign s) = false /\ existsb (fun c => N.eqb (lower c) 0x65) s = false /\ (forall r, s <> 0x2D%N :: r) <-> number s.
Proof.
  split.
  - intros (F & D & Z & P & X & M). apply float_iff in F as (g & r & -> & G & H). destruct H as [H|H].
    + pose proof (decimal_first r H) as Fi. rewrite (skip_sign_app g r G (fun _ => Fi)) in P. destruct H as (b & a & x & -> & Fb & A & Ex). 
      assert (x = []); [|subst x].
      { destruct Ex as [-> |(e & g' & ds & -> & E & _)]; [reflexivity|]. exfalso. apply not_true_iff_false in X. apply X. apply existsb_exists. exists e. split; [rewrite !in_app_iff; right; right; right; left; left; reflexivity|exact (lower_e e E)]. }
      rewrite app_nil_r in *. assert (Nb : b <> []).
      { intros ->. destruct A as [[_ N]|(ds & -> & _)]; [apply N; reflexivity|]. discriminate P. }
      assert (G' : g = [] \/ g = lit "+") by (destruct G as [-> |[-> | ->]]; auto; destruct (M _ eq_refl)).
      assert (A' : a = [] \/ exists f, a = lit "." ++ f /\ Forall digit f) by (destruct A as [[-> _]|(ds & -> & Fd & _)]; eauto).
      exists g, b, a. repeat (split; [solve [auto]|]). split; [|exact A']. apply (zero_first g b a G Fb Nb A'), Z.
    + exfalso. assert (Y : existsb is_digit r = false) by (destruct H as [H|[H|H]]; eapply case_no_digit; try exact H; reflexivity). rewrite existsb_app, Y, orb_false_r in D. destruct G as [-> |[-> | ->]]; discriminate D.
  - intros (g & b & a & -> & G' & Nb & Fb & Z & A). assert (G : sign g) by (destruct G' as [-> | ->]; unfold sign; auto).
    assert (K : forall c, In c (g ++ b ++ a) -> (digit c \/ c = 0x2E \/ c = 0x2B)%N).
    { intros c I. rewrite !in_app_iff in I. rewrite Forall_forall in Fb. destruct I as [I|[I|I]]; [destruct G' as [-> | ->]; [destruct I|destruct I as [<-|[]]; auto]|left; apply Fb, I|].
      destruct A as [-> |(f & -> & F)]; [destruct I|]. destruct I as [<-|I]; [auto|]. rewrite Forall_forall in F. left. apply F, I. }
    split; [apply float_iff; exists g, (b ++ a); split; [reflexivity|]; split; [exact G|]; left; exists b, a, []; rewrite app_nil_r; split; [reflexivity|]; split; [exact Fb|]; split; [|auto]; destruct A as [-> |(f & -> & F)]; [auto|]; right; exists f; split; [reflexivity|]; split; [exact F|]; intros Q; apply app_eq_nil in Q; destruct Q; contradiction|].
    split; [rewrite !existsb_app, (digit_any b Fb Nb), orb_true_r; reflexivity|].
    split; [apply zero_first; assumption|].
    split; [rewrite skip_sign_app by (exact G || (intros _; apply digit_first_sign; assumption)); destruct Fb as [|d b D Fb]; [destruct Nb; reflexivity|]; apply not_true_iff_false; rewrite starts_dot; intros (r & E); injection E as E _; unfold digit in D; lia|].
    split.
    + apply not_true_iff_false. intros Q. apply existsb_exists in Q as (c & I & Q). apply N.eqb_eq in Q. apply K in I. unfold lower in Q. destruct (N.leb 0x41 c && N.leb c 0x5A)%bool; unfold digit in I; lia.
    + intros r E. assert (I : In 0x2D%N (g ++ b ++ a)) by (rewrite E; left; reflexivity). apply K in I. unfold digit in I. lia.
Qed.
Lemma number_plain s : number s -> plain_text s = true /\ mem str_eqb s RESERVED = false /\ radix_text s = false /\ starts_with [DOT] s = false.
Proof.
  intros (g & b & a & -> & G' & Nb & Fb & Z & A).
  assert (K : forall c, In c (g ++ b ++ a) -> (digit c \/ c = 0x2E \/ c = 0x2B)%N).
  { intros c I. rewrite !in_app_iff in I. rewrite Forall_forall in Fb. destruct I as [I|[I|I]]; [destruct G' as [-> | ->]; [destruct I|destruct I as [<-|[]]; auto]|left; apply Fb, I|].
    destruct A as [-> |(f & -> & F)]; [destruct I|]. destruct I as [<-|I]; [auto|]. rewrite Forall_forall in F. left. apply F, I. }
  assert (H : exists c r, g ++ b ++ a = c :: r /\ (digit c \/ c = 0x2B)%N).
  { destruct G' as [-> | ->]; [|eexists; eexists; split; [reflexivity|auto]]. destruct Fb as [|d b D Fb]; [destruct Nb; reflexivity|]. exists d, (b ++ a). auto. }
  destruct H as (c & r & E & H). split; [|split; [|split]].
  - apply plain_text_iff. exists c, r. split; [exact E|]. split; [vm_compute; intros I; repeat (destruct I as [<-|I]; [unfold digit in H; lia|]); exact I|].
    assert (La : In (last (g ++ b ++ a) c) (g ++ b ++ a)) by (rewrite E; clear; revert c; induction r as [|d r IH]; intros c; [left; reflexivity|]; change (last (c :: d :: r) c) with (last (d :: r) c); right; assert (X : forall x y, last (d :: r) x = last (d :: r) y) by (clear; revert d; induction r as [|e r IH]; intros d x y; [reflexivity|]; exact (IH e x y)); rewrite (X c d); apply IH).
    split; [intros Q; rewrite Q in La; apply K in La; unfold digit in La; lia|]. apply Forall_forall. intros x I. apply K in I. split; [unfold shown; unfold digit in I; lia|]. vm_compute. intros J. repeat (destruct J as [<-|J]; [unfold digit in I; lia|]). exact J.
  - apply not_true_iff_false. rewrite reserved_iff. unfold word. intros W. rewrite E in W. cbn [map In] in W. unfold digit in H. repeat (destruct W as [W|W]; [injection W as W; lia|]). exact W.
  - apply not_true_iff_false. rewrite radix_iff. intros (g2 & b2 & r2 & G2 & B2 & Q).
    assert (S1 : skip_sign (g ++ b ++ a) = b ++ a) by (apply skip_sign_app; [destruct G' as [-> | ->]; unfold sign; auto|intros _; apply digit_first_sign; assumption]).
    assert (S2 : skip_sign (g2 ++ b2 ++ r2) = b2 ++ r2) by (destruct G2 as [-> |[-> | ->]]; [destruct B2 as [-> |[-> | ->]]; reflexivity|reflexivity|reflexivity]).
    rewrite Q, S2 in S1. destruct Fb as [|d b D Fb]; [destruct Nb; reflexivity|]. cbn [app hd] in *. 
    assert (Y : d = 0x30%N) by (destruct B2 as [-> |[-> | ->]]; injection S1 as S1 _; congruence). specialize (Z Y). injection Z as Zd Zb. subst d b. cbn [app] in S1.
    destruct A as [-> |(f & -> & F)]; destruct B2 as [-> |[-> | ->]]; cbn in S1; discriminate S1.
  - apply not_true_iff_false. rewrite starts_dot. intros (r' & Q). rewrite E in Q. injection Q as -> _. unfold digit in H. lia.
Qed.
(** What a plain scalar stands for. *)
Lemma read_plain_iff s v : read_plain s = Some v <-> (v = YStr s /\ plain_word s) \/ (v = YNum /\ number s /\ List.length s <= 150) \/ (v = YBool /\ (s = lit "true" \/ s = lit "false")) \/ (v = YNull /\ (s = lit "null" \/ s = lit "~")).
Proof.
  split.
  - unfold read_plain. destruct (plain_text s) eqn:P; [|discriminate]. unfold resolve. destruct (str_eqb s (lit "true") || str_eqb s (lit "false"))%bool eqn:B; [intros Q; injection Q as <-; rewrite orb_true_iff, !str_eqb_eq in B; auto|].
    destruct (str_eqb s (lit "null") || str_eqb s (lit "~"))%bool eqn:U; [intros Q; injection Q as <-; rewrite orb_true_iff, !str_eqb_eq in U; auto|].
    destruct (mem str_eqb s RESERVED || radix_text s || starts_with [DOT] s)%bool eqn:R; [discriminate|]. rewrite !orb_false_iff in R. destruct R as [[R1 R2] R3]. destruct (float_text s) eqn:F.
    + match goal with |- (if ?b then _ else _) = _ -> _ => destruct b eqn:C; [|discriminate] end. intros Q. injection Q as <-. rewrite !andb_true_iff, !negb_true_iff, Nat.leb_le in C. destruct C as [[[[C1 C2] C3] C4] C5].
      right. left. split; [reflexivity|]. split; [|exact C5]. apply number_iff. repeat (split; [assumption|]). intros r ->. apply plain_text_iff in P as (c & r' & E & N & _). injection E as <- _. apply N. vm_compute. tauto.
    + intros Q. injection Q as <-. left. split; [reflexivity|]. apply plain_text_iff in P as (c & r & E & N & L & A). exists c, r. split; [exact E|]. split.
      { intros I. assert (X : In c (lit " &*?|-<>=!%@") \/ c = 0x2E%N) by (revert I; vm_compute; intros I; repeat (destruct I as [I|I]; [auto 20|]); destruct I). destruct X as [X|X]; [exact (N X)|]. subst c. rewrite E in R3. discriminate R3. }
      split; [exact L|]. split; [exact A|]. rewrite <- reserved_iff, <- radix_iff, <- float_iff, R1, R2, F. repeat split; discriminate.
  - intros [(-> & c & r & E & N & L & A & W & B & F)|[(-> & N & L)|[(-> & [-> | ->])|(-> & [-> | ->])]]]; try reflexivity.
    + assert (P : plain_text s = true) by (apply plain_text_iff; exists c, r; split; [exact E|]; split; [intros I; apply N; revert I; vm_compute; tauto|auto]).
      unfold read_plain. rewrite P. rewrite <- reserved_iff, not_true_iff_false in W. rewrite <- radix_iff, not_true_iff_false in B. rewrite <- float_iff, not_true_iff_false in F.
      assert (RV : forall x, In x RESERVED -> str_eqb s x = false) by (intros x Hx; destruct (str_eqb s x) eqn:E1; [|reflexivity]; rewrite <- W; symmetry; apply existsb_exists; eauto).
      unfold resolve. rewrite !RV by (vm_compute; tauto). cbn [orb]. rewrite W, B, F. replace (starts_with [DOT] s) with false; [reflexivity|]. symmetry. apply not_true_iff_false. rewrite starts_dot. intros (r' & Q). rewrite E in Q. injection Q as -> _. apply N. vm_compute. tauto.
    + destruct (number_plain s N) as (P & M & R & D). apply number_iff in N as (N1 & N2 & N3 & N4 & N5 & _). unfold read_plain. rewrite P.
      assert (RV : forall x, In x RESERVED -> str_eqb s x = false) by (intros x Hx; destruct (str_eqb s x) eqn:E1; [|reflexivity]; rewrite <- M; symmetry; apply existsb_exists; eauto).
      unfold resolve. rewrite !RV by (vm_compute; tauto). cbn [orb]. rewrite M, R, D, N1, N2, N3, N4, N5. cbn [orb andb negb]. rewrite (proj2 (Nat.leb_le _ 150) L). reflexivity.
Qed.
Lemma read_plain_scalar s v : read_plain s = Some v -> scalar_is s v.
Proof.
  intros H. apply read_plain_iff in H as [(-> & H)|[(-> & H & L)|[(-> & H)|(-> & H)]]]; [apply sc_text; right; right; auto|constructor; assumption..].
Qed.
