(** Property C84: the original text from the final text and the reported positions. *)
From Coq Require Import String Permutation.
From Verif Require Import Base BaseFacts Utf8 StrOps Position Corr Table Converter Eliminator Reducer Dotted TrimMod Ligature Neologdn ModifierKind ChanomaModel
  CharSpec Spec CharsetFacts ConverterFacts ConverterProps SimpleFacts SimpleProps LigFacts NeoFacts NeoProps PropsConverter PropsNeo PropsPipeline CommProps PropsLig.
Local Open Scope string_scope.
Local Open Scope list_scope.
Opaque neo_text.

(** ** Undoing one stage *)
(** The entry read backwards: [from] and [to] exchanged. *)
Definition backwards (p : position) : position :=
  Pos (p_to p) (p_from p) (p_index p) (p_length p) (p_utf8_index p) (p_utf8_length p).
(** A conversion: put [from] back at the character number [index]. *)
Definition unconvert (out : str) (ps : list position) : str := fold_left apply_entry (map backwards ps) out.
(** A reduction of [k]: the entries in turn replace the occurrences of [k]. *)
Fixpoint unreduce (k : char) (out : str) (ps : list position) : str :=
  match out with
  | [] => []
  | c :: r => if N.eqb c k then match ps with p :: ps' => p_from p ++ unreduce k r ps' | [] => c :: unreduce k r [] end
              else c :: unreduce k r ps
  end.
(** Trimming: an entry with [index] 0 goes to the front, any other to the end. *)
Definition untrim (out : str) (ps : list position) : str :=
  fold_left (fun t p => if Nat.eqb (p_index p) 0 then p_from p ++ t else t ++ p_from p) ps out.
Definition undo (m : modifier) (out : str) (ps : list position) : str :=
  match m with
  | MConv _ => unconvert out ps
  | MRed k => unreduce k out ps
  | MTrim => untrim out ps
  | _ => out
  end.
(** All stages, the last one first, from the final text and the lists of positions only. *)
Definition undo_all (rs : list record) (out : str) : str :=
  fold_right (fun r t => undo (r_kind r) t (r_positions r)) out rs.
(** A stage that reports what it replaced. *)
Definition reports (m : modifier) : Prop :=
  match m with MConv _ | MRed _ | MTrim => True | _ => False end.

Lemma find_map {A B} (f : A -> B) g l : find g (map f l) = option_map f (find (fun x => g (f x)) l).
Proof. induction l as [|a l IH]; cbn [map find]; [reflexivity|]. destruct (g (f a)); [reflexivity|exact IH]. Qed.
Lemma unconvert_ok cc s ps : Permutation ps (spec_positions cc s) -> unconvert (map (conv1 cc) s) ps = s.
Proof.
  intros P. unfold unconvert.
  assert (HN : NoDup (map p_index ps)).
  { apply Permutation_NoDup with (map p_index (spec_positions cc s)).
    - apply Permutation_map. symmetry. exact P.
    - apply spec_positions_from_index. }
  assert (HI : forall p, In p ps <-> substitution_entry (fun c t => conv_get cc c = Some t) s p).
  { intros p. rewrite <- spec_positions_In. split; apply Permutation_in; [exact P|symmetry; exact P]. }
  destruct (replay_nth (map backwards ps) (map (conv1 cc) s)) as [L E].
  { intros q Hq. apply in_map_iff in Hq as (p & <- & Hp). apply HI in Hp.
    destruct Hp as (i & c & t & H1 & H2 & Hf & Ht & Hi & _). cbn. rewrite map_length.
    split; [rewrite Hi; apply nth_error_Some; congruence|exists c; exact Hf]. }
  { rewrite map_map. exact HN. }
  apply list_nth_ext.
  - rewrite L, map_length. reflexivity.
  - intros j x Hx. rewrite E in Hx. rewrite find_map in Hx.
    change (fun x => Nat.eqb j (p_index (backwards x))) with (fun x => Nat.eqb j (p_index x)) in Hx.
    destruct (find _ ps) as [p|] eqn:Ef; cbn [option_map] in Hx.
    + apply find_some in Ef. destruct Ef as [Hp Ej]. apply Nat.eqb_eq in Ej.
      apply HI in Hp. destruct Hp as (i & c & t & H1 & H2 & Hf & Ht & Hi & _).
      cbn in Hx. rewrite Hf in Hx. cbn in Hx. inversion Hx; subst x. rewrite Ej, Hi. exact H1.
    + rewrite nth_error_map in Hx. destruct (nth_error s j) as [y|] eqn:Ey; cbn in Hx; [|discriminate].
      inversion Hx; subst x. f_equal. unfold conv1. destruct (conv_get cc y) as [t|] eqn:Ec; [|reflexivity].
      exfalso. pose (p := Pos [y] [t] j (length (encode [y])) (length (encode (firstn j s))) 1).
      assert (Hp : In p ps). { apply HI. exists j, y, t. repeat split; auto. }
      pose proof (find_none _ _ Ef p Hp) as Hf. cbn in Hf. rewrite Nat.eqb_refl in Hf. discriminate.
Qed.

Lemma unreduce_loop k f : (forall r, p_from (f r) = repeat k (snd r)) -> forall s i cnt,
  unreduce k ((if Nat.ltb 0 cnt then [k] else []) ++ red_rec k (Nat.ltb 0 cnt) s) (map f (runs_loop k i cnt s)) = repeat k cnt ++ s.
Proof.
  intros Hf. induction s as [|x s IH]; intros i cnt; cbn [red_rec runs_loop].
  - destruct cnt; cbn [Nat.ltb Nat.leb app map unreduce]; [reflexivity|]. rewrite N.eqb_refl, Hf. reflexivity.
  - destruct (N.eqb_spec k x) as [<-|Hn].
    + specialize (IH (S i) (S cnt)). cbn [Nat.ltb Nat.leb] in IH.
      transitivity (repeat k (S cnt) ++ s); [|cbn [repeat app]; rewrite app_comm_cons, repeat_cons, <- app_assoc; reflexivity].
      rewrite <- IH. destruct cnt; reflexivity.
    + specialize (IH (S i) 0). cbn [Nat.ltb Nat.leb repeat app] in IH.
      destruct cnt; cbn [Nat.ltb Nat.leb app map unreduce].
      * destruct (N.eqb_spec x k); [congruence|]. cbn [repeat app]. f_equal. exact IH.
      * rewrite N.eqb_refl, Hf. f_equal. destruct (N.eqb_spec x k); [congruence|]. f_equal. exact IH.
Qed.
Lemma red_modify_rec k s : red_modify k s = red_rec k false s.
Proof. unfold red_modify. rewrite red_loop_rec. reflexivity. Qed.
Lemma unreduce_ok k s : unreduce k (red_modify k s) (map (mk_run_pos k s) (runs_loop k 0 0 s)) = s.
Proof. rewrite red_modify_rec. exact (unreduce_loop k (mk_run_pos k s) (fun r => eq_refl) s 0 0). Qed.
Lemma untrim_ok s a out b : trim_parts s a out b -> untrim out (trim_positions a out b) = s.
Proof.
  intros (-> & Hh & Ht & Hb). unfold untrim, trim_positions. rewrite fold_left_app.
  assert (T : forall u l, b <> 0 -> (if Nat.eqb (length (encode (repeat space a ++ out))) 0 then u else l : str) = l).
  { intros u l Hb0. destruct out as [|c out]; [elim Hb0; apply Hb; reflexivity|].
    rewrite encode_app, app_length. destruct (Nat.eqb_spec (length (encode (repeat space a)) + length (encode (c :: out))) 0) as [E|]; [|reflexivity].
    exfalso. rewrite !encode_length in E. unfold blen in E. cbn [map list_sum fold_right] in E. pose proof (len_utf8_pos c). lia. }
  destruct (Nat.eqb_spec a 0) as [->|]; cbn [fold_left p_index p_from Nat.eqb repeat app];
    destruct (Nat.eqb_spec b 0) as [->|Hb0]; cbn [fold_left p_index p_from repeat app];
    rewrite ?app_nil_r, ?T by assumption; rewrite ?app_assoc; try reflexivity.
Qed.

Lemma stage_undone o m s r : reports m -> modify_with_positions o m s = Ok r -> r_kind r = m /\ undo m (r_text r) (r_positions r) = s.
Proof.
  intros Hm H. destruct m as [cc|el|k| |l| |n]; cbn in Hm; try contradiction; cbn [modify_with_positions] in H.
  - destruct (conv_positions_eq o cc s) as (ps & E & P). rewrite E in H. cbn [bind fst snd] in H. injection H as <-. split; [reflexivity|].
    exact (unconvert_ok cc s ps P).
  - rewrite red_positions_eq in H. cbn [bind fst snd] in H. injection H as <-. split; [reflexivity|]. exact (unreduce_ok k s).
  - destruct (trim_parts_exists s) as (a & out & b & T). destruct (trim_parts_eq _ _ _ _ T) as [_ E]. rewrite E in H. cbn [bind fst snd] in H.
    injection H as <-. split; [reflexivity|]. exact (untrim_ok s a out b T).
Qed.
Lemma stage_text o o' m s r t : reports m -> modify_with_positions o m s = Ok r -> modify o' m s = Ok t -> r_text r = t.
Proof.
  intros Hm H H'. destruct m as [cc|el|k| |l| |n]; cbn in Hm; try contradiction; cbn [modify_with_positions modify] in H, H'.
  - destruct (conv_positions_eq o cc s) as (ps & E & P). rewrite E in H. rewrite conv_modify_eq in H'. cbn [bind fst snd] in H. injection H as <-. cbn [r_text]. congruence.
  - rewrite red_positions_eq in H. cbn [bind fst snd] in H. injection H as <-. cbn [r_text]. congruence.
  - destruct (trim_parts_exists s) as (a & out & b & T). destruct (trim_parts_eq _ _ _ _ T) as [E' E]. rewrite E in H. cbn [bind fst snd] in H.
    injection H as <-. cbn [r_text]. congruence.
Qed.
Lemma pipeline_undone c : Forall reports c -> forall o o' i i' s rs out, normalize_records o i c s = Ok rs ->
  normalize_fold o' i' c s = Ok out -> undo_all rs out = s.
Proof.
  induction 1 as [|m c Hm Hc IH]; intros o o' i i' s rs out H H'; cbn [normalize_records normalize_fold] in H, H'.
  - injection H as <-. injection H' as <-. reflexivity.
  - apply bind_ok in H as (r & E & H). apply bind_ok in H as (rs' & E1 & H). injection H as <-. apply bind_ok in H' as (t & E2 & H').
    destruct (stage_undone _ _ _ _ Hm E) as [K U]. pose proof (stage_text _ _ _ _ _ _ Hm E E2) as T. subst t.
    unfold undo_all in *. cbn [fold_right]. rewrite (IH _ _ _ _ _ _ _ E1 H'), K. exact U.
Qed.

Lemma records_kinds o i c s rs : normalize_records o i c s = Ok rs -> map r_kind rs = c.
Proof.
  revert i s rs; induction c as [|m c IH]; intros i s rs H; cbn [normalize_records] in H; [injection H as <-; reflexivity|].
  apply bind_ok in H as (r & E & H). apply bind_ok in H as (rs' & E1 & H). injection H as <-. cbn [map]. f_equal; [|exact (IH _ _ _ E1)].
  clear - E. destruct m; cbn [modify_with_positions] in E; try (injection E as <-; reflexivity);
    apply bind_ok in E as (y & _ & E); injection E as <-; reflexivity.
Qed.

(** ** C84 *)
(** One stage that converts, reduces or trims: its text and its positions give the text before it. *)
Theorem C84_stage : forall o m s r, reports m -> normalize_with_positions o [m] s = Ok [r] ->
  undo m (r_text r) (r_positions r) = s.
Proof.
  intros o m s r Hm H. unfold normalize_with_positions in H. cbn [normalize_records] in H. apply bind_ok in H as (r' & E & H).
  cbn [bind] in H. injection H as ->. exact (proj2 (stage_undone _ _ _ _ Hm E)).
Qed.
Print Assumptions C84_stage.
(** For a conversion the order of the entries is of no concern. *)
Theorem C84_conversion_any_order : forall o cc s r ps, normalize_with_positions o [MConv cc] s = Ok [r] ->
  Permutation ps (r_positions r) -> unconvert (r_text r) ps = s.
Proof.
  intros o cc s r ps H P. destruct (normalize_with_positions_conv o cc s) as (ps' & E & P'). rewrite E in H. apply Ok_inj in H.
  injection H as <-. cbn [r_text r_positions] in *. apply unconvert_ok. exact (Permutation_trans P P').
Qed.
Print Assumptions C84_conversion_any_order.
(** Several such stages: the final text and the lists of positions are enough. *)
Theorem C84_pipeline : forall o c s rs out, Forall reports c -> normalize_with_positions o c s = Ok rs ->
  result c s out -> undo_all rs out = s.
Proof. intros o c s rs out Hc H (o' & H'). exact (pipeline_undone c Hc o o' 0 0 s rs out H H'). Qed.
Print Assumptions C84_pipeline.
(** So two texts with the same result and the same positions at every stage are equal. *)
Theorem C84_determined : forall o o' c s s' rs rs' out, Forall reports c ->
  normalize_with_positions o c s = Ok rs -> normalize_with_positions o' c s' = Ok rs' ->
  map r_positions rs = map r_positions rs' -> result c s out -> result c s' out -> s = s'.
Proof.
  intros o o' c s s' rs rs' out Hc H H' P R R'. rewrite <- (C84_pipeline o c s rs out Hc H R), <- (C84_pipeline o' c s' rs' out Hc H' R').
  pose proof (records_kinds _ _ _ _ _ H) as K. pose proof (records_kinds _ _ _ _ _ H') as K'. rewrite <- K' in K. clear - P K.
  unfold undo_all. revert rs' P K; induction rs as [|r rs IH]; intros [|r' rs'] P K; cbn in *; try discriminate; [reflexivity|].
  injection P as P P'. injection K as K K'. rewrite P, K, (IH rs' P' K'). reflexivity.
Qed.
Print Assumptions C84_determined.

(** A first stage of another kind reports nothing: two texts have the same records, whatever the stages after it. *)
Definition hidden (m : modifier) : Prop :=
  exists s s', valid_str s /\ valid_str s' /\ s <> s' /\ forall o rest, normalize_with_positions o (m :: rest) s = normalize_with_positions o (m :: rest) s'.
Lemma hidden_of m s s' : valid_str s -> valid_str s' -> s <> s' -> (forall o, modify_with_positions o m s = modify_with_positions o m s') -> hidden m.
Proof.
  intros V V' N H. exists s, s'. split; [exact V|]. split; [exact V'|]. split; [exact N|]. intros o rest.
  unfold normalize_with_positions. cbn [normalize_records]. rewrite H. reflexivity.
Qed.
Theorem C84_elimination_hidden : forall el c, In c el -> valid_str [c] -> hidden (MElim el).
Proof.
  intros el c H V. apply (hidden_of _ [c] []); [exact V|constructor|discriminate|]. intros o. cbn [modify_with_positions]. do 2 f_equal.
  cbn [elim_modify]. replace (mem N.eqb c el) with true; [reflexivity|]. symmetry. apply (mem_In N.eqb N.eqb_eq). exact H.
Qed.
Print Assumptions C84_elimination_hidden.
Theorem C84_dotted_hidden : hidden MDot.
Proof.
  apply (hidden_of _ (lit " ") []); [repeat constructor|constructor|discriminate|]. intros o. reflexivity.
Qed.
Print Assumptions C84_dotted_hidden.
Theorem C84_ligatures_hidden : forall m k v, NoDup (map fst m) -> non_interfering m -> In (k, v) m ->
  (forall k v, In (k, v) m -> valid_str k /\ valid_str v) -> hidden (MLig m).
Proof.
  intros m k v ND NI I V. destruct (V k v I) as [Vk Vv].
  assert (E : forall s out o, replaced (fun k v => In (k, v) m) s out -> lig_modify o m s = out).
  { intros s out o R. destruct (C21_simultaneous false (fun p => match p with _ :: r => o r | [] => [] end) m s ND NI) as (out' & E & U & _).
    apply U in R. subst out'. unfold normalize in E. cbn in E. injection E as E. exact E. }
  assert (R : replaced (fun k v => In (k, v) m) k v).
  { rewrite <- (app_nil_r k), <- (app_nil_r v) at 1. apply rep_hit; [exact (proj1 (proj1 NI k v I))|exact I|apply rep_nil]. }
  assert (N : forall k' v', In (k', v') m -> ~ occurs k' v).
  { destruct (C21_simultaneous false no_order m k ND NI) as (out & _ & U & _ & N). apply U in R. subst out. exact N. }
  apply (hidden_of _ k v Vk Vv).
  - intros Hk. apply (N k v I). rewrite <- Hk. rewrite <- (app_nil_r k) at 2. apply occurs_here.
  - intros o. cbn [modify_with_positions]. rewrite (E k v o R). rewrite (E v v o); [reflexivity|]. apply replaced_id.
    intros k' v' I'. split; [exact (proj1 (proj1 NI k' v' I'))|exact (N k' v' I')].
Qed.
Print Assumptions C84_ligatures_hidden.
Theorem C84_neologdn_hidden : hidden (MNeo NEO).
Proof.
  apply (hidden_of _ (lit " ") []); [repeat constructor|constructor|discriminate|]. intros o. cbn [modify_with_positions].
  rewrite !neo_positions_eq. cbn [bind fst snd]. vm_compute. reflexivity.
Qed.
Print Assumptions C84_neologdn_hidden.
Example C84_case :
  (exists rs, normalize_with_positions no_order [MTrim; MConv [(0xFF21%N, 65%N)]; MRed 65%N] ([0x20; 0xFF21; 0x41; 0x62; 0xFF21; 0x20; 0x20]%N) = Ok rs /\
     Forall reports (map r_kind rs) /\ undo_all rs (lit "AbA") = [0x20; 0xFF21; 0x41; 0x62; 0xFF21; 0x20; 0x20]%N) /\
  normalize_with_positions no_order [MElim [97%N]; MTrim] (lit "ab") = normalize_with_positions no_order [MElim [97%N]; MTrim] (lit "ba").
Proof.
  split; [|vm_compute; reflexivity].
  eexists. split; [vm_compute; reflexivity|]. split; [repeat constructor|vm_compute; reflexivity].
Qed.
