(** C110: when the order of a hash map shows in the result. *)
From Coq Require Import String Factorial.
From Verif Require Import Base Utf8 StrOps Converter Eliminator Reducer Dotted TrimMod Ligature Neologdn ModifierKind ChanomaModel
  CharSpec Spec BaseFacts CharsetFacts ConverterFacts ConverterProps SimpleFacts SimpleProps LigFacts NeoFacts NeoProps PropsConverter PropsNeo PropsPipeline PropsLig
  CommProps EditFacts TableFacts SameSpec SameFacts SameNeo PropsSame RenameSpec PropsRename Machines ShortSpec ShortFacts PropsShort OrderSpec.
From Coq Require Import Lia.
Local Open Scope string_scope.
Local Open Scope list_scope.
Local Notation length := List.length.
Opaque neo_text.

(** The text has the same result whatever the orders of the hash maps. *)
Definition one_result (c : chanoma) (t : str) : Prop := forall out out', result c t out -> result c t out' -> out = out'.
Definition pass (p : list (str * str)) (t : str) : str := fold_left (fun s e => replace (fst e) (snd e) s) p t.

Lemma pass_app p q t : pass (p ++ q) t = pass q (pass p t).
Proof. apply fold_left_app. Qed.

(** ** One key after another *)
Lemma one_rules k v a b : one k v a b <-> rules [(k, v)] a b.
Proof. unfold one, rules. cbn. split; [intros [-> ->]; auto|intros [E|[]]; injection E as <- <-; auto]. Qed.
Lemma sized_replace k v : sized (S (length k) * 2 ^ length k) (replace k v).
Proof.
  destruct k as [|x k'].
  - cbn [length Nat.pow Nat.mul]. apply (sized_ext 1 (det (fun (_ : unit) c => (tt, v ++ [c])) (fun _ => v) tt)).
    + intros t. cbn [replace]. induction t as [|c t IH]; cbn [det replace_empty fst snd]; [reflexivity|]. rewrite IH, <- app_assoc. reflexivity.
    + apply (sized_le 1 (1 + 0)); [lia|]. apply (sized_det [tt]); [intros []; left; reflexivity|decide equality].
  - set (k := x :: k'). assert (Nk : k <> []) by discriminate. assert (K : forall k0 v0, In (k0, v0) [(k, v)] -> k0 <> []) by (intros k0 v0 [E|[]]; injection E as <- <-; exact Nk).
    exists (lig_machine [(k, v)] K). split.
    + etransitivity; [apply Nat.eq_le_incl, (prod_length ([] :: sufs [(k, v)]) (sublists (sufs [(k, v)])))|]. rewrite sublists_length. cbn [length]. pose proof (sufs_length [(k, v)]) as Q. unfold key_total in Q. cbn [map list_sum fold_right fst] in Q. rewrite Nat.add_0_r in Q. unfold str in *. rewrite !Q. apply Nat.le_refl.
    + intros t out. etransitivity; [apply (lig_acc [(k, v)] K t [] [] out); intros z []|]. split.
      * intros (_ & t' & -> & R). symmetry. apply (replace_spec k v t' out Nk). apply (replaced_ext (rules [(k, v)])); [intros a b; symmetry; apply one_rules|exact R].
      * intros ->. split; [intros z []|]. exists t. split; [reflexivity|]. apply (replaced_ext (one k v)); [apply one_rules|]. apply (replace_spec k v t _ Nk). reflexivity.
Qed.
Lemma sized_id : sized 1 (fun s => s).
Proof. apply (sized_ext 1 (map (fun c => c))); [apply map_id|apply sized_map]. Qed.
Lemma sized_pass p : sized (order_memory (MLig p)) (pass p).
Proof.
  cbn [order_memory]. induction p as [|[k v] p IH]; [exact sized_id|].
  exact (sized_comp _ _ _ _ (sized_replace k v) IH).
Qed.
Lemma memory_perm p q : Permutation p q -> order_memory (MLig p) = order_memory (MLig q).
Proof.
  intros P. cbn [order_memory]. induction P as [|e p q P IH|e f p|p q r P IH P' IH']; cbn [fold_right]; [reflexivity|rewrite IH; reflexivity| |congruence].
  apply Nat.mul_shuffle3.
Qed.
(** What is done with one text under some orders is done with every text by a machine. *)
Lemma modify_sized m : constructible m -> forall o, exists f, (forall s, modify o m s = Ok (f s)) /\ sized (order_memory m) f.
Proof.
  intros C o. assert (X : forall f, (forall o s, normalize false o [m] s = Ok (f s)) -> forall s, modify o m s = Ok (f s)).
  { intros f H s. specialize (H (fun p => match p with [] => [] | _ :: q => o q end) s). unfold normalize in H. cbn [negb normalize_fold] in H. change (sub (fun p => match p with [] => [] | _ :: q => o q end) 0) with o in H. destruct (modify o m s); cbn [bind] in H; [exact H|discriminate H|discriminate H]. }
  destruct m as [cc|el|k| |l| |e]; cbn [order_memory memory].
  - exists (map (conv1 cc)). split; [intros s; apply conv_modify_eq|apply sized_map].
  - eexists. split; [intros s; cbn [modify]; rewrite elim_modify_filter; reflexivity|apply sized_filter].
  - exists (red_rec k false). split; [intros s; cbn [modify]; rewrite red_modify_rec; reflexivity|apply sized_red].
  - exists (dot_rec SPACE false). split; [intros s; cbn [modify]; rewrite dot_modify_rec; reflexivity|apply sized_dot].
  - exists (pass (hash_iter o l)). split; [reflexivity|]. pose proof (memory_perm _ _ (hash_iter_perm o l)) as E. cbn [order_memory] in E. rewrite E. exact (sized_pass (hash_iter o l)).
  - exists trim_modify. split; [reflexivity|apply sized_trim].
  - rewrite (neo_constructible e C) in *. exists neo_text. split; [|apply sized_neo]. apply X. intros o' s. apply normalize_neo.
Qed.
Lemma fold_sized c : Forall constructible c -> forall o i, exists f, (forall s, normalize_fold o i c s = Ok (f s)) /\ sized (order_memory_of c) f.
Proof.
  induction 1 as [|m c Hm H IH]; intros o i; [exists (fun s => s); split; [reflexivity|exact sized_id]|].
  destruct (modify_sized m Hm (sub o i)) as (f & F & Sf). destruct (IH o (S i)) as (g & G & Sg). exists (fun s => g (f s)). split; [|exact (sized_comp _ _ _ _ Sf Sg)].
  intros s. cbn [normalize_fold]. rewrite F. cbn [bind]. apply G.
Qed.
Lemma result_sized c t out : Forall constructible c -> result c t out -> exists f, out = f t /\ (forall s, result c s (f s)) /\ sized (order_memory_of c) f /\
  forall g, Forall (unnoticed g) c -> forall s, f (map g s) = map g (f s).
Proof.
  intros C (o & E). destruct (fold_sized c C o 0) as (f & F & Sf). unfold normalize in E. cbn [negb] in E. rewrite F in E. apply Ok_inj in E. exists f. split; [symmetry; exact E|]. split; [intros s; exists o; apply F|]. split; [exact Sf|].
  intros g U s. pose proof (C99_renaming c g C U false o s (f s) (F s)) as Q. unfold normalize in Q. cbn [negb] in Q. rewrite F in Q. apply Ok_inj in Q. exact Q.
Qed.

(** If the orders show on a text, they show on a short one. *)
Theorem C110_short : forall c (P : char -> Prop), Forall constructible c ->
  (forall t, Forall P t -> length t < 2 * (order_memory_of c * order_memory_of c) -> one_result c t) ->
  forall t, Forall P t -> one_result c t.
Proof.
  intros c P C H t T out out' R R'. destruct (result_sized c t out C R) as (f & -> & F & Sf & _). destruct (result_sized c t out' C R') as (g & -> & G & Sg & _).
  apply (short_texts _ _ f g P Sf Sg); [|exact T]. intros u U L. apply (H u U L); [apply F|apply G].
Qed.
Print Assumptions C110_short.
(** Two pipelines whose results do not depend on the orders are compared by short texts too. *)
Theorem C110_compare : forall c d, Forall constructible c -> Forall constructible d ->
  (forall t, length t < 2 * (order_memory_of c * order_memory_of c) -> one_result c t) ->
  (forall t, length t < 2 * (order_memory_of d * order_memory_of d) -> one_result d t) ->
  (forall t, length t < 2 * (order_memory_of c * order_memory_of d) -> agree c d t) ->
  forall t, agree c d t.
Proof.
  intros c d C D Hc Hd H.
  assert (K : forall c, Forall constructible c -> (forall t, length t < 2 * (order_memory_of c * order_memory_of c) -> one_result c t) -> exists f, (forall s out, result c s out <-> out = f s) /\ sized (order_memory_of c) f).
  { clear. intros c C Hc. destruct (fold_sized c C no_order 0) as (f & F & Sf). exists f. split; [|exact Sf]. intros s out. split.
    - intros R. apply (C110_short c (fun _ => True) C (fun t _ => Hc t) s); [apply Forall_forall; auto|exact R|exists no_order; apply F].
    - intros ->. exists no_order. apply F. }
  destruct (K c C Hc) as (f & F & Sf). destruct (K d D Hd) as (g & G & Sg). intros t. apply (agree_eq c d f g F G). apply (short_texts _ _ f g (fun _ => True) Sf Sg); [|apply Forall_forall; auto].
  intros u _ L. apply (agree_eq c d f g F G). apply H, L.
Qed.
Print Assumptions C110_compare.

(** ** All results of a text *)
Section Perms.
  Context {A : Type}.
  Fixpoint inserts (x : A) (l : list A) : list (list A) := (x :: l) :: match l with [] => [] | y :: r => map (cons y) (inserts x r) end.
  Fixpoint perms (l : list A) : list (list A) := match l with [] => [[]] | x :: r => flat_map (inserts x) (perms r) end.
  Lemma inserts_in x l p : In p (inserts x l) <-> exists a b, l = a ++ b /\ p = a ++ x :: b.
  Proof.
    revert p. induction l as [|y l IH]; intros p; cbn [inserts In].
    - split; [intros [<-|[]]; exists [], []; auto|intros (a & b & E & ->)]. symmetry in E. apply app_eq_nil in E as [-> ->]. auto.
    - rewrite in_map_iff. split.
      + intros [<-|(q & <- & Q)]; [exists [], (y :: l); auto|]. apply IH in Q as (a & b & -> & ->). exists (y :: a), b. auto.
      + intros (a & b & E & ->). destruct a as [|z a]; [left; cbn in E; rewrite E; reflexivity|]. injection E as <- ->. right. exists (a ++ x :: b). split; [reflexivity|]. apply IH. eauto.
  Qed.
  Lemma perms_in l p : In p (perms l) <-> Permutation l p.
  Proof.
    revert p. induction l as [|x l IH]; intros p; cbn [perms].
    - split; [intros [<-|[]]; constructor|intros H; apply Permutation_nil in H; subst; left; reflexivity].
    - rewrite in_flat_map. split.
      + intros (q & Q & I). apply IH in Q. apply inserts_in in I as (a & b & -> & ->). apply Permutation_cons_app. exact Q.
      + intros H. assert (I : In x p) by (apply (Permutation_in _ H); left; reflexivity). apply in_split in I as (a & b & ->). exists (a ++ b). split; [apply IH; apply (Permutation_cons_app_inv _ _ H)|]. apply inserts_in. eauto.
  Qed.
  Lemma inserts_length x l : length (inserts x l) = S (length l).
  Proof. induction l as [|y l IH]; cbn [inserts length]; [reflexivity|]. rewrite map_length, IH. reflexivity. Qed.
  Lemma perms_length l : length (perms l) = fact (length l).
  Proof.
    induction l as [|x l IH]; [reflexivity|]. cbn [perms length]. assert (G : forall ps, (forall p, In p ps -> Permutation l p) -> length (flat_map (inserts x) ps) = S (length l) * length ps).
    { induction ps as [|p ps Q]; intros H; [cbn; lia|]. cbn [flat_map length]. rewrite app_length, inserts_length, Q by (intros q I; apply H; right; exact I). rewrite (Permutation_length (H p (or_introl eq_refl))). lia. }
    rewrite G by (intros p; apply perms_in). rewrite IH. reflexivity.
  Qed.
End Perms.
Lemma result_lig l t out : result [MLig l] t out <-> exists p, Permutation l p /\ out = pass p t.
Proof.
  split.
  - intros (o & E). rewrite normalize_lig in E. apply Ok_inj in E. exists (hash_iter (sub o 0) l). split; [apply hash_iter_perm|symmetry; exact E].
  - intros (p & P & ->). destruct (hash_iter_surj l p P) as (o & E). exists (fun q => match q with [] => [] | _ :: r => o r end). rewrite normalize_lig. f_equal. unfold lig_modify, sub. change (fun p0 : list nat => o p0) with o. rewrite E. reflexivity.
Qed.
Lemma results_one m t : constructible m -> exists L, length L = orders m /\ forall out, result [m] t out <-> In out L.
Proof.
  intros C. assert (X : forall f, does m f -> exists L : list str, length L = 1 /\ forall out, result [m] t out <-> In out L).
  { intros f D. exists [f t]. split; [reflexivity|]. intros out. rewrite (D t out). cbn. split; [intros ->; auto|intros [E|[]]; auto]. }
  destruct m as [cc|el|k| |l| |e]; cbn [orders].
  - apply (X _ (does_conv cc)).
  - apply (X _ (does_elim el)).
  - apply (X _ (does_red k)).
  - apply (X _ does_dot).
  - exists (map (fun p => pass p t) (perms l)). split; [rewrite map_length; apply perms_length|]. intros out. rewrite result_lig, in_map_iff. split; intros (p & A & B); exists p; (split; [|try apply perms_in]); auto; apply perms_in; assumption.
  - apply (X _ does_trim).
  - rewrite (neo_constructible e C) in *. apply (X _ does_neologdn).
Qed.
(** A text has finitely many results, no more than there are choices of orders. *)
Theorem C110_results : forall c, Forall constructible c -> forall t, exists L, length L = orders_of c /\ forall out, result c t out <-> In out L.
Proof.
  induction 1 as [|m c Hm H IH]; intros t.
  - exists [t]. split; [reflexivity|]. intros out. unfold result, normalize. cbn. split; [intros (o & E); left; congruence|intros [->|[]]; exists no_order; reflexivity].
  - destruct (results_one m t Hm) as (L & E & R).
    assert (G : forall L, exists K, length K = length L * orders_of c /\ forall out, In out K <-> exists mid, In mid L /\ result c mid out).
    { clear - IH. induction L as [|mid L (K & E & Q)]; [exists []; split; [reflexivity|]; intros out; split; [intros []|intros (m & [] & _)]|]. destruct (IH mid) as (K' & E' & Q'). exists (K' ++ K). split; [rewrite app_length, E, E'; cbn [length]; lia|].
      intros out. rewrite in_app_iff, Q, <- Q'. split; [intros [A|(x & I & A)]; [exists mid|exists x]; split; auto; [left; reflexivity|right; exact I]|intros (x & [->|I] & A); [left; exact A|right; eauto]]. }
    destruct (G L) as (K & EK & Q). exists K. split; [rewrite EK, E; reflexivity|]. intros out. rewrite Q. change (m :: c) with ([m] ++ c). rewrite result_app. split; intros (mid & A & B); exists mid; (split; [apply R; exact A|exact B]).
Qed.
Print Assumptions C110_results.
Lemma all_same (L : list str) : {forall x y, In x L -> In y L -> x = y} + {~ forall x y, In x L -> In y L -> x = y}.
Proof.
  destruct L as [|z L]; [left; intros x y []|]. destruct (Forall_dec (eq z) (fun x => list_eq_dec N.eq_dec z x) L) as [F|F].
  - left. rewrite Forall_forall in F. intros x y [<-|X] [<-|Y]; auto; [symmetry; auto|transitivity z; [symmetry|]; auto].
  - right. intros H. apply F, Forall_forall. intros x X. apply H; [left; reflexivity|right; exact X].
Qed.
(** Whether orders can show is settled by finitely many texts, each of which can be settled. *)
Theorem C110_decidable : forall c, Forall constructible c -> exists l : list str,
  (forall t, In t l -> length t < 2 * (order_memory_of c * order_memory_of c)) /\
  (Forall (one_result c) l \/ Exists (fun t => exists out out', result c t out /\ result c t out' /\ out <> out') l) /\
  (Forall (one_result c) l <-> forall t, one_result c t).
Proof.
  intros c C. set (A := flat_map told_apart c). destruct (fresh A) as (z & z' & Hz & Hz' & N). exists (texts (z :: z' :: A) (2 * (order_memory_of c * order_memory_of c))). split; [intros t T; apply texts_in in T; apply T|].
  generalize (texts_in (z :: z' :: A) (2 * (order_memory_of c * order_memory_of c))). generalize (texts (z :: z' :: A) (2 * (order_memory_of c * order_memory_of c))). intros l Hl. split.
  - clear Hl. induction l as [|t l [IH|IH]]; [left; constructor| |right; constructor 2; exact IH]. destruct (C110_results c C t) as (L & _ & Q). destruct (all_same L) as [S|S].
    + left. constructor; [|exact IH]. intros x y X Y. apply S; apply Q; assumption.
    + right. constructor. clear - S Q. destruct L as [|z L]; [destruct S; intros x y []|]. destruct (Forall_Exists_dec (eq z) (fun x => list_eq_dec N.eq_dec z x) L) as [F|F].
      * destruct S. rewrite Forall_forall in F. intros x y [<-|X] [<-|Y]; auto; [symmetry; auto|transitivity z; [symmetry|]; auto].
      * apply Exists_exists in F as (x & X & D). exists z, x. split; [apply Q; left; reflexivity|]. split; [apply Q; right; exact X|exact D].
  - split; [|intros H; apply Forall_forall; intros t _; apply H]. intros H. rewrite Forall_forall in H. intros t out out' R R'.
    destruct (result_sized c t out C R) as (f & -> & F & Sf & Nf). destruct (result_sized c t out' C R') as (g & -> & G & Sg & Ng).
    assert (K : forall u, incl u (z :: z' :: A) -> f u = g u).
    { intros u U. apply (short_texts _ _ f g (fun x => In x (z :: z' :: A)) Sf Sg); [|apply Forall_forall; exact U]. intros w W L. apply (H w); [apply Hl; rewrite Forall_forall in W; auto|apply F|apply G]. }
    destruct (list_eq_dec N.eq_dec (f t) (g t)) as [E|E]; [exact E|exfalso].
    assert (V : Forall (covers A) c) by (apply Forall_forall; intros m I; apply told_covers; intros x X; apply in_flat_map; eauto).
    assert (X : forall p, map (fold_char A z z' p) (f t) = map (fold_char A z z' p) (g t)).
    { intros p. assert (U : Forall (unnoticed (fold_char A z z' p)) c) by (eapply Forall_impl; [|exact V]; intros m; apply fold_unnoticed; assumption). rewrite <- (Nf _ U), <- (Ng _ U).
      apply K. intros x I. apply in_map_iff in I as (y & <- & _). unfold fold_char. destruct (in_dec N.eq_dec y A); [right; right; assumption|]. destruct (N.eqb y p); cbn; tauto. }
    destruct (differ _ _ E) as [L|(i & a & b & Ea & Eb & Nab)].
    + apply L. specialize (X z). apply (f_equal (@List.length _)) in X. rewrite !map_length in X. exact X.
    + specialize (X a). apply (f_equal (fun l => nth_error l i)) in X. rewrite !nth_error_map, Ea, Eb in X. cbn in X. injection X as X.
      unfold fold_char in X. rewrite N.eqb_refl in X. destruct (in_dec N.eq_dec a A) as [Ia|Ia], (in_dec N.eq_dec b A) as [Ib|Ib].
      * contradiction.
      * destruct (N.eqb b a); subst; contradiction.
      * subst. contradiction.
      * destruct (N.eqb_spec b a); congruence.
Qed.
Print Assumptions C110_decidable.

(** ** Entries that can be exchanged *)
Lemma pass_perm l p : Permutation l p -> (forall e e', In e l -> In e' l -> forall t, pass [e; e'] t = pass [e'; e] t) -> forall t, pass l t = pass p t.
Proof.
  induction 1 as [|e l p P IH|e e' l|l p q P IH P' IH']; intros H t; cbn [pass fold_left] in *.
  - reflexivity.
  - apply IH. intros a b A B. apply H; right; assumption.
  - change (pass l (pass [e'; e] t) = pass l (pass [e; e'] t)). f_equal. apply H; cbn; auto.
  - rewrite IH by exact H. apply IH'. intros a b A B. apply H; apply (Permutation_in _ (Permutation_sym P)); assumption.
Qed.
(** If each two entries can be exchanged, the orders do not show. *)
Theorem C110_pairs : forall l, (forall e e', In e l -> In e' l -> e <> e' -> forall t, one_result [MLig [e; e']] t) -> forall t, one_result [MLig l] t.
Proof.
  intros l H t out out' R R'. apply result_lig in R as (p & P & ->). apply result_lig in R' as (q & Q & ->).
  assert (X : forall e e', In e l -> In e' l -> forall t, pass [e; e'] t = pass [e'; e] t).
  { intros e e' I I' u. assert (D : {e = e'} + {e <> e'}) by (repeat decide equality). destruct D as [->|D]; [reflexivity|]. apply (H e e' I I' D u); apply result_lig; eexists; (split; [|reflexivity]); [apply Permutation_refl|apply perm_swap]. }
  rewrite <- (pass_perm l p P X), <- (pass_perm l q Q X). reflexivity.
Qed.
Print Assumptions C110_pairs.
Lemma nodup_apart {A} (x y : list A) : NoDup (x ++ y) -> forall a, In a x -> ~ In a y.
Proof. induction x as [|b x IH]; intros N a I J; [destruct I|]. inversion N as [|? ? H N']; subst. destruct I as [->|I]; [apply H, in_or_app; auto|]. exact (IH N' a I J). Qed.
Lemma fst_inj {A B} (l : list (A * B)) k v w : NoDup (map fst l) -> In (k, v) l -> In (k, w) l -> v = w.
Proof.
  induction l as [|[k' u] l IH]; intros N I J; [destruct I|]. inversion N as [|? ? H N']; subst. destruct I as [I|I], J as [J|J]; [congruence| | |exact (IH N' I J)].
  - injection I as -> ->. destruct H. exact (in_map fst _ _ J).
  - injection J as -> ->. destruct H. exact (in_map fst _ _ I).
Qed.
Definition put (a : char) (v : str) (t : str) : str := flat_map (fun c => if N.eqb a c then v else [c]) t.
Lemma replace_put a v t : replace [a] v t = put a v t.
Proof.
  unfold replace, put. induction t as [|c t IH]; [reflexivity|]. cbn [replace_scan flat_map starts_with length Nat.sub]. destruct (N.eqb a c); cbn [andb]; rewrite ?IH; reflexivity.
Qed.
Lemma put_app a v s t : put a v (s ++ t) = put a v s ++ put a v t.
Proof. unfold put. apply flat_map_app. Qed.
Lemma put_none a v t : ~ In a t -> put a v t = t.
Proof.
  unfold put. induction t as [|c t IH]; intros N; [reflexivity|]. cbn [flat_map]. destruct (N.eqb_spec a c) as [->|_]; [destruct N; left; reflexivity|]. rewrite IH; [reflexivity|]. intros I. apply N. right. exact I.
Qed.
Lemma put_same a v t : put a v t = t -> In a t -> v = [a].
Proof.
  intros E I. assert (L : forall t, length (put a v t) + count_occ N.eq_dec t a = length t + length v * count_occ N.eq_dec t a).
  { clear. induction t as [|c t IH]; [cbn; lia|]. cbn [put flat_map count_occ]. fold (put a v t). rewrite app_length. destruct (N.eqb_spec a c) as [->|N]; destruct (N.eq_dec _ _) as [Q|Q]; try congruence; cbn [length] in *; lia. }
  specialize (L t). rewrite E in L. apply (count_occ_In N.eq_dec) in I as J. assert (V : length v = 1) by nia. destruct v as [|b [|c v]]; [discriminate V| |discriminate V]. clear L V J.
  induction t as [|c t IH]; [destruct I|]. cbn [put flat_map] in E. fold (put a [b] t) in E. destruct (N.eqb_spec a c) as [<-|N].
  - injection E as -> _. reflexivity.
  - injection E as E. destruct I as [->|I]; [congruence|]. apply IH; assumption.
Qed.
Lemma put_id a t : put a [a] t = t.
Proof. unfold put. induction t as [|c t IH]; [reflexivity|]. cbn [flat_map]. rewrite IH. destruct (N.eqb_spec a c) as [->|_]; reflexivity. Qed.
Lemma put_swap a v b w t : a <> b -> put b w v = v -> put a v w = w -> put b w (put a v t) = put a v (put b w t).
Proof.
  intros N V W. induction t as [|c t IH]; [reflexivity|]. change (c :: t) with ([c] ++ t). rewrite !put_app, IH. f_equal. unfold put at 2 4. cbn [flat_map]. rewrite !app_nil_r.
  destruct (N.eqb_spec a c) as [E|A].
  - subst c. destruct (N.eqb_spec b a) as [E|B]; [congruence|]. rewrite V. unfold put. cbn [flat_map]. rewrite N.eqb_refl, app_nil_r. reflexivity.
  - destruct (N.eqb_spec b c) as [E|B].
    + subst c. rewrite W. unfold put. cbn [flat_map]. rewrite N.eqb_refl, app_nil_r. reflexivity.
    + unfold put. cbn [flat_map]. destruct (N.eqb_spec b c); [congruence|]. destruct (N.eqb_spec a c); [congruence|]. reflexivity.
Qed.
(** Keys of one character: the orders do not show exactly if no value has the key of another entry, unless that entry changes nothing. *)
Theorem C110_single : forall l, NoDup (map fst l) -> (forall k v, In (k, v) l -> exists a, k = [a]) ->
  ((forall t, one_result [MLig l] t) <-> forall a v b w, In ([a], v) l -> In ([b], w) l -> a <> b -> In b v -> w = [b]).
Proof.
  intros l ND K. split.
  - intros H a v b w I J N B. apply (put_same b w v); [|exact B]. apply in_split in I as (l1 & l2 & E). subst l.
    assert (J' : In ([b], w) (l1 ++ l2)) by (apply in_app_or in J as [J|[J|J]]; [apply in_or_app; auto|congruence|apply in_or_app; auto]). apply in_split in J' as (r1 & r2 & E).
    set (r := r1 ++ r2). assert (P : Permutation (l1 ++ ([a], v) :: l2) (r ++ [([a], v); ([b], w)])).
    { rewrite <- Permutation_middle, E, <- Permutation_middle. unfold r. rewrite (Permutation_app_comm (r1 ++ r2) _). cbn [app]. reflexivity. }
    clearbody r.
    assert (P' : Permutation (l1 ++ ([a], v) :: l2) (r ++ [([b], w); ([a], v)])) by (rewrite P; apply Permutation_app_head, perm_swap).
    assert (R : pass r [a] = [a]).
    { assert (Nr : forall k u, In (k, u) r -> exists c, k = [c] /\ c <> a).
      { intros k u Q. assert (Q' : In (k, u) (l1 ++ ([a], v) :: l2)) by (apply (Permutation_in _ (Permutation_sym P)), in_or_app; left; exact Q). destruct (K k u Q') as (c & ->). exists c. split; [reflexivity|]. intros ->.
        pose proof (Permutation_NoDup (Permutation_map fst P) ND) as D. rewrite map_app in D. apply (nodup_apart _ _ D [a]); [apply (in_map fst) in Q; exact Q|left; reflexivity]. }
      clear - Nr. revert Nr. generalize r. intros q. induction q as [|[k u] q IH]; intros Nr; [reflexivity|]. cbn [pass fold_left fst snd]. destruct (Nr k u (or_introl eq_refl)) as (c & -> & N). rewrite replace_put, put_none by (intros [E|[]]; congruence). apply IH. intros k' u' I. apply (Nr k' u'). right. exact I. }
    assert (X : pass (r ++ [([a], v); ([b], w)]) [a] = pass (r ++ [([b], w); ([a], v)]) [a]) by (apply (H [a]); apply result_lig; eexists; (split; [|reflexivity]); assumption).
    rewrite !pass_app, R in X. cbn [pass fold_left fst snd] in X. rewrite !replace_put in X. rewrite (put_none b w [a]) in X by (intros [Q|[]]; congruence).
    unfold put at 2 3 in X. cbn [flat_map] in X. rewrite N.eqb_refl, app_nil_r in X. exact X.
  - intros H. apply C110_pairs. intros [k v] [k' w] I J D t out out' R R'. destruct (K _ _ I) as (a & ->). destruct (K _ _ J) as (b & ->).
    assert (N : a <> b) by (intros ->; apply D; f_equal; exact (fst_inj l [b] v w ND I J)).
    assert (V : put b w v = v). { destruct (in_dec N.eq_dec b v) as [B|B]; [rewrite (H a v b w I J N B); apply put_id|apply put_none, B]. }
    assert (W : put a v w = w). { destruct (in_dec N.eq_dec a w) as [B|B]; [rewrite (H b w a v J I (not_eq_sym N) B); apply put_id|apply put_none, B]. }
    assert (Q : forall out, result [MLig [([a], v); ([b], w)]] t out -> out = put b w (put a v t)).
    { intros x X. apply result_lig in X as (p & P & ->). apply Permutation_length_2_inv in P as [->| ->]; cbn [pass fold_left fst snd]; rewrite !replace_put; [reflexivity|symmetry; apply put_swap; assumption]. }
    rewrite (Q _ R), (Q _ R'). reflexivity.
Qed.
Print Assumptions C110_single.

(** The condition on pairs is not necessary: a third entry can hide what two of them show. *)
Definition hiding : list (str * str) := [(lit "a", []); (lit "aa", []); (lit "ab", lit "b")].
Lemma replaced_filter (g : char -> bool) k v s out : filter g k = filter g v -> replaced (one k v) s out -> filter g out = filter g s.
Proof.
  intros E H. induction H as [|k' w s out Hk (-> & ->) H IH|x s out Hm H IH]; [reflexivity| |].
  - rewrite !filter_app, IH, E. reflexivity.
  - cbn [filter]. rewrite IH. reflexivity.
Qed.
Lemma replaced_chars k v s out x : replaced (one k v) s out -> In x out -> In x s \/ In x v.
Proof.
  intros H. induction H as [|k' w s out Hk (-> & ->) H IH|y s out Hm H IH]; intros I; [destruct I| |].
  - apply in_app_or in I as [I|I]; [auto|]. destruct (IH I) as [Q|Q]; [left; apply in_or_app; auto|auto].
  - destruct I as [->|I]; [left; left; reflexivity|]. destruct (IH I) as [Q|Q]; [left; right; exact Q|auto].
Qed.
Theorem C110_pairs_refuted : exists l, NoDup (map fst l) /\ (forall t, one_result [MLig l] t) /\ exists e e' t, In e l /\ In e' l /\ ~ one_result [MLig [e; e']] t.
Proof.
  exists hiding. split; [repeat constructor; cbn; intuition discriminate|]. split.
  - set (g := fun c => negb (N.eqb 97%N c)).
    assert (Q : forall p, incl p hiding -> forall s, filter g (pass p s) = filter g s /\ (In (lit "a", []) p \/ ~ In 97%N s -> ~ In 97%N (pass p s))).
    { induction p as [|[k v] p IH]; intros I s; [split; [reflexivity|intros [[]|H]; exact H]|].
      assert (Hk : In (k, v) hiding) by (apply I; left; reflexivity). destruct (IH (fun e J => I e (or_intror J)) (replace k v s)) as [F N].
      assert (Nk : k <> []) by (destruct Hk as [E|[E|[E|[]]]]; injection E as <- <-; discriminate). assert (Kv : filter g k = filter g v) by (destruct Hk as [E|[E|[E|[]]]]; injection E as <- <-; reflexivity).
      assert (Av : ~ In 97%N v) by (destruct Hk as [E|[E|[E|[]]]]; injection E as <- <-; cbn; intuition discriminate).
      pose proof (proj1 (replace_spec k v s _ Nk) eq_refl) as R. cbn [pass fold_left fst snd]. split; [exact (eq_trans F (replaced_filter g k v s _ Kv R))|].
      intros D. apply N. destruct D as [[E|D]|D]; [right|left; exact D|right].
      - injection E as -> ->. change (lit "a") with [97%N]. rewrite replace_put. unfold put. intros J. apply in_flat_map in J as (c & _ & J). destruct (N.eqb_spec 97%N c) as [_|X]; [destruct J|]. destruct J as [J|[]]. congruence.
      - intros J. destruct (replaced_chars _ _ _ _ _ R J); contradiction. }
    intros t out out' R R'. apply result_lig in R as (p & P & ->). apply result_lig in R' as (q & P' & ->).
    assert (X : forall p, Permutation hiding p -> pass p t = filter g t).
    { intros z Z. destruct (Q z (fun e J => Permutation_in _ (Permutation_sym Z) J) t) as [F N]. rewrite <- F. symmetry. assert (A : ~ In 97%N (pass z t)) by (apply N; left; apply (Permutation_in _ Z); left; reflexivity).
      revert A. generalize (pass z t). clear. induction s as [|c s IH]; intros A; [reflexivity|]. cbn [filter]. unfold g at 1. destruct (N.eqb_spec 97%N c) as [<-|_]; [destruct A; left; reflexivity|]. cbn [negb]. rewrite IH; [reflexivity|]. intros J. apply A. right. exact J. }
    rewrite (X p P), (X q P'). reflexivity.
  - exists (lit "aa", []), (lit "ab", lit "b"), (lit "aab"). split; [right; left; reflexivity|]. split; [right; right; left; reflexivity|]. intros H.
    assert (E : pass [(lit "aa", []); (lit "ab", lit "b")] (lit "aab") = pass [(lit "ab", lit "b"); (lit "aa", [])] (lit "aab")) by (apply (H _ _); apply result_lig; eexists; (split; [|reflexivity]); [apply Permutation_refl|apply perm_swap]).
    vm_compute in E. discriminate E.
Qed.
Print Assumptions C110_pairs_refuted.

(** Three entries with six results, and a map that interferes, though its orders do not show. *)
Example C110_six : let l := [(lit "1", lit "x"); (lit "2", lit "y1"); (lit "3", lit "z12")] in
  exists outs, NoDup outs /\ length outs = 6 /\ forall out, In out outs -> result [MLig l] (lit "123") out.
Proof.
  intros l. exists (map (fun p => pass p (lit "123")) (perms l)). split; [vm_compute; repeat constructor; cbn; intuition discriminate|]. split; [reflexivity|].
  intros out I. apply in_map_iff in I as (p & <- & P). apply result_lig. exists p. split; [apply perms_in, P|reflexivity].
Qed.
Example C110_case : let l := [(lit "a", lit "aa"); (lit "c", lit "ad")] in ~ non_interfering l /\ ~ (forall t, one_result [MLig l] t) /\ forall t, one_result [MLig [(lit "a", lit "aa"); (lit "c", lit "cd")]] t.
Proof.
  intros l. assert (ND : forall v w : str, NoDup (map fst [(lit "a", v); (lit "c", w)])) by (intros v w; constructor; [cbn; intuition discriminate|constructor; [intros []|constructor]]).
  assert (K : forall (v w k u : str), In (k, u) [(lit "a", v); (lit "c", w)] -> exists a, k = [a]) by (intros v w k u [E|[E|[]]]; injection E as <- <-; eexists; reflexivity). split; [|split].
  - intros (_ & _ & H). apply (H (lit "a") (lit "aa") (lit "a") (lit "aa") 97%N); cbn; auto.
  - intros H. pose proof (proj1 (C110_single l (ND _ _) (K _ _)) H 99%N (lit "ad") 97%N (lit "aa")) as X. specialize (X ltac:(right; left; reflexivity) ltac:(left; reflexivity) ltac:(discriminate) ltac:(left; reflexivity)). discriminate X.
  - apply (C110_single _ (ND _ _) (K _ _)). intros a v b w [E|[E|[]]] [E'|[E'|[]]] N B; injection E as <- <-; injection E' as <- <-; try contradiction; cbn in B; intuition discriminate.
Qed.
