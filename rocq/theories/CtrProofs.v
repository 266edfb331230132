(** Proofs for CtrProps. *)
From Coq Require Import String Ascii List ZArith QArith Qabs Bool Lia Lqa.
From Verif Require Import Prelude DtyModel DtySpec DtyProofs RszProofs ColModel ColSpec ColProofs CtrModel CtrSpec.
Import ListNotations.
Open Scope Z_scope.

(** ** Gates *)
Lemma append_assoc' : forall a b c, ((a ++ b) ++ c = a ++ b ++ c)%string.
Proof. induction a; intros; cbn; [reflexivity|]. rewrite IHa. reflexivity. Qed.
Lemma append_nil' : forall a, (a ++ "" = a)%string.
Proof. induction a; cbn; [reflexivity|]. rewrite IHa. reflexivity. Qed.
Lemma no_space_app : forall a b, no_space a -> no_space b -> no_space (a ++ b)%string.
Proof. induction a; cbn; [tauto|]. intros b [A B] C. split; [exact A|]. apply IHa; assumption. Qed.
Notation wordlist s := (filter (fun p => negb (String.eqb p EmptyString)) s).
Lemma split_word : forall w acc s, no_space w -> split_spaces acc (w ++ String " " s) = (acc ++ w)%string :: split_spaces "" s.
Proof.
  induction w as [|a w]; intros acc s H.
  - cbn. rewrite append_nil'. reflexivity.
  - destruct H as [A B]. cbn. apply Ascii.eqb_neq in A. rewrite A. rewrite IHw by exact B. rewrite append_assoc'. reflexivity.
Qed.
Lemma split_last : forall w acc, no_space w -> split_spaces acc w = [(acc ++ w)%string].
Proof.
  induction w as [|a w]; intros acc H.
  - cbn. rewrite append_nil'. reflexivity.
  - destruct H as [A B]. cbn. apply Ascii.eqb_neq in A. rewrite A. rewrite IHw by exact B. rewrite append_assoc'. reflexivity.
Qed.
Lemma word_ne : forall w, w <> EmptyString -> negb (String.eqb w "") = true.
Proof. intros w H. apply String.eqb_neq in H. rewrite H. reflexivity. Qed.
Lemma words_split : forall s ws, has_words s ws -> wordlist (split_spaces "" s) = ws.
Proof.
  induction 1 as [|s ws H IH|w [W1 W2]|w s ws [W1 W2] H IH].
  - reflexivity.
  - cbn. exact IH.
  - rewrite split_last by exact W2. cbn [filter append]. rewrite word_ne by exact W1. reflexivity.
  - rewrite split_word by exact W2. cbn [filter append]. rewrite word_ne by exact W1. rewrite IH. reflexivity.
Qed.
Lemma words_exist' : forall s acc, no_space acc -> has_words (acc ++ s)%string (wordlist (split_spaces acc s)).
Proof.
  induction s as [|a s IH]; intros acc N.
  - rewrite append_nil'. cbn. destruct (String.eqb_spec acc ""); cbn; [subst; constructor|]. apply words_last. split; assumption.
  - cbn [split_spaces]. destruct (Ascii.eqb_spec a " ") as [->|A].
    + specialize (IH EmptyString Logic.I). cbn [append] in IH. cbn [filter]. destruct (String.eqb_spec acc ""); cbn [negb].
      * subst. cbn. apply words_space. exact IH.
      * apply words_next; [split; assumption|exact IH].
    + assert (N' : no_space (acc ++ String a "")%string) by (apply no_space_app; [exact N|cbn; auto]).
      specialize (IH _ N'). rewrite append_assoc' in IH. exact IH.
Qed.
Lemma words_exist : forall s, exists ws, has_words s ws.
Proof. intros s. exists (wordlist (split_spaces "" s)). apply (words_exist' s EmptyString Logic.I). Qed.
Lemma words_unique : forall s ws ws', has_words s ws -> has_words s ws' -> ws = ws'.
Proof. intros s ws ws' A B. apply words_split in A, B. congruence. Qed.

Lemma named_name : forall d, dtype_named (name d) = Ok d.
Proof. destruct d; reflexivity. Qed.
Lemma named_ok : forall w, (exists d, w = name d /\ dtype_named w = Ok d) \/ (unknown w /\ dtype_named w = Err KeyError_).
Proof.
  intros w. destruct (dtype_named w) as [d|e] eqn:E.
  - left. exists d. split; [|reflexivity]. unfold dtype_named in E.
    repeat match type of E with (if String.eqb w ?s then _ else _) = _ => destruct (String.eqb_spec w s); [injection E as <-; assumption|] end. discriminate.
  - right. assert (e = KeyError_).
    { unfold dtype_named in E. repeat match type of E with (if ?b then _ else _) = _ => destruct b; [discriminate|] end. congruence. }
    subst. split; [|reflexivity]. intros d ->. rewrite named_name in E. discriminate.
Qed.
Lemma parse_lists : forall s l, lists s l -> parse_dtypes s = Ok l.
Proof.
  intros s l H. unfold parse_dtypes. rewrite (words_split _ _ H). clear H. induction l as [|d l IH]; [reflexivity|].
  cbn [map]. rewrite RszProofs.mapM_cons, named_name. cbn [bind]. rewrite IH. reflexivity.
Qed.
Lemma parse_unknown : forall s ws w, has_words s ws -> In w ws -> unknown w -> parse_dtypes s = Err KeyError_.
Proof.
  intros s ws w H I U. unfold parse_dtypes. rewrite (words_split _ _ H). clear H. induction ws as [|a ws IH]; [destruct I|].
  rewrite RszProofs.mapM_cons. destruct (named_ok a) as [(d & -> & ->)|[_ ->]]; [|reflexivity]. cbn [bind].
  destruct I as [<-|I]; [exfalso; exact (U d eq_refl)|]. rewrite IH by exact I. reflexivity.
Qed.
Lemma lists_or_unknown : forall s, (exists l, lists s l) \/ (exists ws w, has_words s ws /\ In w ws /\ unknown w).
Proof.
  intros s. destruct (words_exist s) as [ws H].
  assert (X : (exists l, ws = map name l) \/ exists w, In w ws /\ unknown w).
  { clear H. induction ws as [|w ws IH]; [left; exists []; reflexivity|]. destruct (named_ok w) as [(d & E & _)|[U _]]; [|right; exists w; split; [left; reflexivity|exact U]].
    destruct IH as [[l L]|(w' & I & U)]; [left; exists (d :: l); cbn; congruence|right; exists w'; split; [right; exact I|exact U]]. }
  destruct X as [[l L]|(w & I & U)]; [left; exists l; unfold lists; congruence|right; exists ws, w; auto].
Qed.

Lemma dname_eqb_iff : forall a b, dname_eqb a b = true <-> a = b.
Proof. destruct a, b; cbn; split; congruence. Qed.
Definition dname_dec : forall a b : dname, {a = b} + {a <> b}.
Proof. decide equality. Defined.
Lemma mem_iff : forall d l, mem d l = true <-> In d l.
Proof.
  intros d l. unfold mem. rewrite existsb_exists. split.
  - intros (x & I & E). apply dname_eqb_iff in E. congruence.
  - intros I. exists d. split; [exact I|]. apply dname_eqb_iff. reflexivity.
Qed.
Lemma mem_false : forall d l, mem d l = false <-> ~ In d l.
Proof. intros d l. rewrite <- mem_iff. destruct (mem d l); split; congruence. Qed.
Lemma gate_cases : forall ds a d,
  ((exists x, In x ds /\ ~ In x a /\ In x d) -> gate_types ds a d = Err ValueError) /\
  ((forall x, In x ds -> In x a \/ ~ In x d) -> exists w, gate_types ds a d = Ok w /\ forall x, In x w <-> In x ds /\ ~ In x a).
Proof.
  intros ds a d. unfold gate_types. split.
  - intros (x & I & A & D). assert (X : existsb (fun d0 => mem d0 d) (filter (fun d0 => negb (mem d0 a)) ds) = true).
    { apply existsb_exists. exists x. split; [|apply mem_iff; exact D]. apply filter_In. split; [exact I|]. apply mem_false in A. rewrite A. reflexivity. }
    rewrite X. reflexivity.
  - intros H. destruct (existsb _ _) eqn:E.
    + apply existsb_exists in E. destruct E as (x & I & M). apply filter_In in I. destruct I as [I A]. apply mem_iff in M. apply negb_true_iff, mem_false in A. destruct (H x I); contradiction.
    + eexists. split; [reflexivity|]. intros x. rewrite !filter_In. split.
      * intros [[I A] D]. split; [exact I|]. apply negb_true_iff, mem_false in A. exact A.
      * intros [I A]. split; [split; [exact I|]; apply negb_true_iff, mem_false; exact A|]. apply negb_true_iff, mem_false. destruct (H x I); [contradiction|assumption].
Qed.
Lemma gate_listed : forall ds sa sd a d, lists sa a -> lists sd d -> (forall x, In x a -> ~ In x d) ->
  (Exists (fun x => In x d) ds -> gate_strs ds sa sd = Err ValueError) /\
  (Forall (fun x => ~ In x d) ds -> exists w, gate_strs ds sa sd = Ok w /\ forall x, In x w <-> In x ds /\ ~ In x a).
Proof.
  intros ds sa sd a d A D N. unfold gate_strs. rewrite (parse_lists _ _ A), (parse_lists _ _ D). cbn [bind].
  assert (X : existsb (fun x => mem x d) a = false).
  { destruct (existsb _ _) eqn:E; [|reflexivity]. apply existsb_exists in E. destruct E as (x & I & M). apply mem_iff in M. exfalso. exact (N x I M). }
  rewrite X. destruct (gate_cases ds a d) as [G1 G2]. split.
  - intros H. apply Exists_exists in H. destruct H as (x & I & M). apply G1. exists x. repeat split; try assumption. intros AA. exact (N x AA M).
  - intros H. apply G2. intros x I. right. rewrite Forall_forall in H. apply H. exact I.
Qed.
Lemma gate_overlap : forall ds sa sd a d x, lists sa a -> lists sd d -> In x a -> In x d -> gate_strs ds sa sd = Err AssertionError.
Proof.
  intros ds sa sd a d x A D I J. unfold gate_strs. rewrite (parse_lists _ _ A), (parse_lists _ _ D). cbn [bind].
  assert (X : existsb (fun x => mem x d) a = true) by (apply existsb_exists; exists x; split; [exact I|apply mem_iff; exact J]). rewrite X. reflexivity.
Qed.
Lemma gate_unknown : forall ds sa sd ws w, has_words sa ws \/ has_words sd ws -> In w ws -> unknown w -> gate_strs ds sa sd = Err KeyError_.
Proof.
  intros ds sa sd ws w [H|H] I U; unfold gate_strs.
  - rewrite (parse_unknown _ _ _ H I U). reflexivity.
  - destruct (lists_or_unknown sa) as [[l L]|(ws' & w' & H' & I' & U')]; [rewrite (parse_lists _ _ L)|rewrite (parse_unknown _ _ _ H' I' U'); reflexivity].
    cbn [bind]. rewrite (parse_unknown _ _ _ H I U). reflexivity.
Qed.
Definition all_dnames := [Bool; U8; U16; U32; U64; I8; I16; I32; I64; F16; F32; F64; F128].
Lemma all_dnames_in : forall d, In d all_dnames.
Proof. destruct d; cbn; tauto. Qed.
Lemma name_inj : forall d d', name d = name d' -> d = d'.
Proof. intros d d' H. pose proof (named_name d) as A. rewrite H, named_name in A. congruence. Qed.
Lemma gate_library : forall a d x, In (a, d) library_gates -> exists la ld, lists a la /\ lists d ld /\ ((In x la /\ ~ In x ld) \/ (~ In x la /\ In x ld)).
Proof.
  intros a d x H.
  assert (P : exists la ld, parse_dtypes a = Ok la /\ parse_dtypes d = Ok ld /\ xorb (mem x la) (mem x ld) = true).
  { cbn [library_gates In] in H. decompose [or] H; clear H; try contradiction;
      match goal with E : (_, _) = (a, d) |- _ => injection E as <- <- end; eexists _, _; (split; [vm_compute; reflexivity|]); (split; [vm_compute; reflexivity|]); destruct x; reflexivity. }
  destruct P as (la & ld & P1 & P2 & P3).
  assert (L : forall s l, parse_dtypes s = Ok l -> lists s l).
  { intros s l E. destruct (lists_or_unknown s) as [[l' L']|(ws & w & W1 & W2 & W3)]; [rewrite (parse_lists _ _ L') in E; congruence|rewrite (parse_unknown _ _ _ W1 W2 W3) in E; discriminate]. }
  exists la, ld. split; [auto|]. split; [auto|]. destruct (mem x la) eqn:E1, (mem x ld) eqn:E2; try discriminate; [left|right]; rewrite <- !mem_iff, E1, E2; split; congruence.
Qed.
Lemma gate_in_library : forall a d ds, In (a, d) library_gates ->
  (exists la, lists a la /\ Forall (fun x => In x la) ds /\ gate_strs ds a d = Ok []) \/
  (exists la, lists a la /\ Exists (fun x => ~ In x la) ds /\ gate_strs ds a d = Err ValueError).
Proof.
  intros a d ds H. destruct (gate_library a d U8 H) as (la & ld & A & D & _).
  assert (P : forall x, (In x la /\ ~ In x ld) \/ (~ In x la /\ In x ld)).
  { intros x. destruct (gate_library a d x H) as (la' & ld' & A' & D' & P). apply parse_lists in A', D'. rewrite (parse_lists _ _ A) in A'. rewrite (parse_lists _ _ D) in D'. congruence. }
  destruct (gate_listed ds a d la ld A D) as [G1 G2]; [intros x I; destruct (P x) as [[_ ?]|[? _]]; [assumption|contradiction]|].
  destruct (Forall_Exists_dec (fun x => ~ In x ld)) with (l := ds) as [F|E].
  { intros x. destruct (in_dec dname_dec x ld); [right; tauto|left; assumption]. }
  - left. exists la. split; [exact A|]. destruct (G2 F) as (w & W & WI). split.
    + rewrite Forall_forall in F |- *. intros x I. specialize (F x I). destruct (P x) as [[? _]|[_ ?]]; [assumption|contradiction].
    + rewrite W. f_equal. destruct w as [|x w]; [reflexivity|]. exfalso. destruct (proj1 (WI x) (or_introl eq_refl)) as [I N]. rewrite Forall_forall in F. specialize (F x I). destruct (P x) as [[? _]|[_ ?]]; contradiction.
  - right. exists la. split; [exact A|]. split.
    + apply Exists_exists in E. destruct E as (x & I & N). apply Exists_exists. exists x. split; [exact I|]. destruct (P x) as [[_ ?]|[? _]]; [contradiction|assumption].
    + apply G1. apply Exists_exists in E. destruct E as (x & I & N). apply Exists_exists. exists x. split; [exact I|]. destruct (P x) as [[_ ?]|[_ ?]]; [contradiction|assumption].
Qed.
Lemma gate_set : forall ds ds' a d, (forall x, In x ds <-> In x ds') ->
  match gate_strs ds a d, gate_strs ds' a d with
  | Ok w, Ok w' => forall x, In x w <-> In x w'
  | Err e, Err e' => e = e'
  | _, _ => False
  end.
Proof.
  intros ds ds' a d H. unfold gate_strs. destruct (parse_dtypes a) as [la|]; cbn [bind]; [|reflexivity]. destruct (parse_dtypes d) as [ld|]; cbn [bind]; [|reflexivity].
  destruct (existsb _ la); [reflexivity|]. unfold gate_types.
  assert (X : existsb (fun d0 => mem d0 ld) (filter (fun d0 => negb (mem d0 la)) ds) = existsb (fun d0 => mem d0 ld) (filter (fun d0 => negb (mem d0 la)) ds')).
  { apply eq_true_iff_eq. rewrite !existsb_exists. split; intros (x & I & M); exists x; (split; [|exact M]); rewrite filter_In in *; destruct I; split; try assumption; apply H; assumption. }
  rewrite X. match goal with |- context [if ?b then _ else _] => destruct b end; cbn beta iota; [reflexivity|]. intros x. rewrite !filter_In, H. tauto.
Qed.
Lemma only_uint8_ok : forall ds, (allow_only_uint8 ds = Ok [] <-> Forall (eq U8) ds) /\ (allow_only_uint8 ds = Err ValueError <-> Exists (fun d => d <> U8) ds).
Proof.
  intros ds.
  assert (A : lists "uint8" [U8]) by (apply words_last; cbn; repeat split; discriminate).
  destruct (gate_in_library "uint8" "uint16 uint32 uint64 int8 int16 int32 int64 float16 float32 float64 float128 bool" ds) as [(la & L & F & G)|(la & L & F & G)]; [cbn; tauto| |];
    apply parse_lists in A, L; assert (la = [U8]) by congruence; subst la; unfold allow_only_uint8; rewrite G.
  - assert (F' : Forall (eq U8) ds) by (eapply Forall_impl; [|exact F]; cbn; intuition). split; [tauto|]. split; [discriminate|]. intros E. apply Exists_exists in E. destruct E as (x & I & N). rewrite Forall_forall in F'. exfalso. apply N. symmetry. apply F'; exact I.
  - apply Exists_exists in F. destruct F as (x & I & N). assert (N' : x <> U8) by (intros ->; apply N; left; reflexivity). split.
    + split; [discriminate|]. intros F'. rewrite Forall_forall in F'. exfalso. apply N'. symmetry. apply F'; exact I.
    + split; [|reflexivity]. intros _. apply Exists_exists. exists x. auto.
Qed.

(** ** Promotion *)
Definition max_of (d : dname) : Z := snd (range_of (dty d)).
Definition min_of (d : dname) : Z := fst (range_of (dty d)).
Definition holds (a b : dname) : bool :=
  match dty a, dty b with
  | DF p _, DF p' _ => p <=? p'
  | DF _ _, _ => false
  | _, DF p _ => (- 2 ^ p <=? min_of a) && (max_of a <=? 2 ^ p)
  | _, _ => (min_of b <=? min_of a) && (max_of a <=? max_of b)
  end.
Definition is_float_name (d : dname) : bool := is_float (dty d).
Lemma value_int : forall d v, is_float_name d = false -> (value_of d v <-> exists z, (v == inject_Z z)%Q /\ min_of d <= z <= max_of d).
Proof.
  intros d v F. unfold value_of, min_of, max_of, is_float_name in *. destruct (dty d) as [b|b|p e]; [| |discriminate]; cbn [range_of fst snd];
    split; intros (z & E & R); exists z; (split; [exact E|lia]).
Qed.
Lemma int_range_name : forall d, is_float_name d = false -> int_range (dty d) (min_of d) (max_of d).
Proof. intros d F. unfold min_of, max_of. destruct d; try discriminate F; constructor; lia. Qed.
Lemma float_form : forall d, is_float_name d = true -> exists p e, dty d = DF p e /\ 0 < p /\ 0 < e /\ max_of d = (2 ^ p - 1) * 2 ^ e /\ min_of d = - max_of d.
Proof. intros d F. unfold min_of, max_of. destruct d; try discriminate F; eexists _, _; (split; [reflexivity|]); (split; [lia|]); (split; [lia|]); split; reflexivity. Qed.
Lemma pow2_1 : forall z, (inject_Z z == inject_Z z * pow2 0)%Q.
Proof. intros z. rewrite pow2_0. ring. Qed.
Lemma qabs_le : forall q m, (Qabs q <= m)%Q <-> (- m <= q /\ q <= m)%Q.
Proof. intros q m. apply Qabs_Qle_condition. Qed.
Lemma holds_includes : forall a b, holds a b = true -> includes b a.
Proof.
  intros a b H v V. unfold holds in H. destruct (is_float_name a) eqn:FA.
  - destruct (float_form a FA) as (p & e & EA & P & EE & MA & _). rewrite EA in H. destruct (is_float_name b) eqn:FB; [|unfold is_float_name in FB; destruct (dty b); discriminate].
    destruct (float_form b FB) as (p' & e' & EB & P' & EE' & MB & _). rewrite EB in H. apply Z.leb_le in H. rename H into H1.
    assert (H2 : max_of a <= max_of b).
    { rewrite MA, MB. assert (EL : e <= e') by (clear - H1 EA EB FA FB; destruct a; try discriminate FA; destruct b; try discriminate FB; cbn in EA, EB; injection EA as <- <-; injection EB as <- <-; clear - H1; lia).
      pose proof (Z.pow_le_mono_r 2 p p'). pose proof (Z.pow_le_mono_r 2 e e'). pose proof (Z.pow_pos_nonneg 2 p). pose proof (Z.pow_pos_nonneg 2 e). apply Z.mul_le_mono_nonneg; lia. }
    unfold value_of in *. rewrite EA in V. rewrite EB. destruct V as [(m & k & V1 & V2) V3]. split.
    + exists m, k. split; [exact V1|]. pose proof (Z.pow_le_mono_r 2 p p'). lia.
    + rewrite <- MA in V3. rewrite <- MB. apply (Qle_trans _ _ _ V3). rewrite <- Zle_Qle. exact H2.
  - apply (value_int a v FA) in V. destruct V as (z & E & R). destruct (is_float_name b) eqn:FB.
    + destruct (float_form b FB) as (p & e & EB & P & EE & MB & NB). rewrite EB in H. assert (H' : (- 2 ^ p <=? min_of a) && (max_of a <=? 2 ^ p) = true) by (unfold is_float_name in FA; destruct (dty a); [exact H|exact H|discriminate]).
      apply andb_true_iff in H'. destruct H' as [H1 H2]. apply Z.leb_le in H1, H2.
      assert (H3 : 2 ^ p <= max_of b). { rewrite MB. pose proof (Z.pow_le_mono_r 2 1 p). pose proof (Z.pow_le_mono_r 2 1 e). change (2 ^ 1) with 2 in *. nia. }
      unfold value_of. rewrite EB. split; [exists z, 0; split; [rewrite E; apply pow2_1|lia]|]. apply qabs_le. rewrite <- MB. rewrite E, <- inject_Z_opp, <- !Zle_Qle. lia.
    + apply (value_int b v FB). exists z. split; [exact E|]. assert (H' : (min_of b <=? min_of a) && (max_of a <=? max_of b) = true) by (unfold is_float_name in FA, FB; destruct (dty a), (dty b); try discriminate; exact H).
      apply andb_true_iff in H'. destruct H' as [H1 H2]. apply Z.leb_le in H1, H2. lia.
Qed.
Lemma holds_change : forall a b v, holds a b = true -> value_of a v -> exists v', change_dtype (dty a) (dty b) v false false = Ok v' /\ (v' == v)%Q.
Proof.
  intros a b v H V. unfold change_dtype. destruct (dtype_eqb (dty a) (dty b)); [exists v; split; reflexivity|]. cbn [andb bind].
  destruct (is_float_name b) eqn:FB.
  - destruct (float_form b FB) as (p' & e' & EB & P' & _). rewrite EB. cbn [astype]. eexists. split; [reflexivity|].
    apply (holds_includes _ _ H) in V. unfold value_of in V. rewrite EB in V. destruct V as [(m & k & V1 & V2) _]. apply (to_float_exact p' p' v m k); [lia|exact V1|exact V2].
  - pose proof (int_range_name b FB) as R. apply (holds_includes _ _ H) in V. apply (value_int b v FB) in V. destruct V as (z & E & B). exists (inject_Z z). split; [|symmetry; exact E].
    apply (astype_int _ _ _ _ _ _ R E B).
Qed.
Lemma value_eq : forall d v w, (v == w)%Q -> value_of d v -> value_of d w.
Proof.
  intros d v w E V. unfold value_of in *. destruct (dty d).
  - destruct V as (z & V & R). exists z. split; [rewrite <- E; exact V|exact R].
  - destruct V as (z & V & R). exists z. split; [rewrite <- E; exact V|exact R].
  - destruct V as [(m & k & V & R) B]. split; [exists m, k; split; [rewrite <- E; exact V|exact R]|rewrite <- E; exact B].
Qed.
Lemma change_array_ok : forall a d, holds (fst a) d = true -> array_ok a -> exists b, change_array d a = Ok b /\ same_values d a b.
Proof.
  intros [s vs] d H O. unfold change_array, array_ok in *. cbn [fst snd] in *.
  assert (X : exists ws, mapM (fun v => change_dtype (dty s) (dty d) v false false) vs = Ok ws /\ Forall2 Qeq vs ws /\ Forall (value_of d) ws).
  { induction O as [|v vs V O IH]; [exists []; repeat constructor|]. destruct IH as (ws & E & F & W). destruct (holds_change s d v H V) as (v' & Ev & Q).
    exists (v' :: ws). rewrite RszProofs.mapM_cons, Ev. cbn [bind]. rewrite E. cbn [bind]. split; [reflexivity|]. split; constructor; try assumption; [symmetry; exact Q|].
    apply (value_eq d v); [symmetry; exact Q|]. apply (holds_includes _ _ H); exact V. }
  destruct X as (ws & E & F & W). exists (d, ws). rewrite E. split; [reflexivity|]. split; [reflexivity|]. split; assumption.
Qed.
(** Either all values of [a] are values of [p], or [a] is a 64 bit integer and [p] is float64. *)
Definition under (a p : dname) : bool := holds a p || (mem a [U64; I64] && dname_eqb p F64).
Definition all2 (f : dname -> dname -> bool) : bool := forallb (fun a => forallb (f a) all_dnames) all_dnames.
Lemma all2_iff : forall f, all2 f = true -> forall a b, f a b = true.
Proof. intros f H a b. unfold all2 in H. rewrite forallb_forall in H. specialize (H a (all_dnames_in a)). rewrite forallb_forall in H. apply H, all_dnames_in. Qed.
Lemma promote_ok' : all2 (fun a b => match promote_types a b with Ok p => under a p && under b p && forallb (fun x => implb (under x a) (under x p)) all_dnames | Err _ => false end) = true.
Proof. vm_compute. reflexivity. Qed.
Lemma promote_ok : forall a b, exists p, promote_types a b = Ok p /\ under a p = true /\ under b p = true /\ forall x, under x a = true -> under x p = true.
Proof.
  intros a b. pose proof (all2_iff _ promote_ok' a b) as H. cbn beta in H. destruct (promote_types a b) as [p|]; [|discriminate]. exists p. split; [reflexivity|].
  apply andb_true_iff in H. destruct H as [H H3]. apply andb_true_iff in H. destruct H as [H1 H2]. repeat split; try assumption.
  intros x U. rewrite forallb_forall in H3. specialize (H3 x (all_dnames_in x)). cbn beta in H3. rewrite U in H3. exact H3.
Qed.
Lemma increase_ok' : all2 (fun a x => forallb (fun f => match increase_itemsize a f with Ok p => implb (under x a) (under x p) && holds a p | Err _ => true end) [1; 2; 4; 8]) = true.
Proof. vm_compute. reflexivity. Qed.
Lemma factor_cases : forall f, (f =? 1) || (f =? 2) || (f =? 4) || (f =? 8) = true <-> In f [1; 2; 4; 8].
Proof. intros f. cbn [In]. rewrite !orb_true_iff, !Z.eqb_eq. split; intros H; decompose [or] H; auto 8; contradiction. Qed.
Lemma increase_under : forall a f p, increase_itemsize a f = Ok p -> holds a p = true /\ forall x, under x a = true -> under x p = true.
Proof.
  intros a f p H. assert (F : In f [1; 2; 4; 8]).
  { unfold increase_itemsize in H. destruct (negb _) eqn:E; [discriminate|]. apply negb_false_iff in E. apply factor_cases; exact E. }
  assert (X : forall x, implb (under x a) (under x p) && holds a p = true).
  { intros x. pose proof (all2_iff _ increase_ok' a x) as I. cbn beta in I. rewrite forallb_forall in I. specialize (I f F). cbn beta in I. rewrite H in I. exact I. }
  split; [specialize (X U8); apply andb_true_iff in X; tauto|]. intros x U. specialize (X x). rewrite U in X. apply andb_true_iff in X. exact (proj1 X).
Qed.
Lemma fold_promote : forall l d, exists p, fold_left (fun acc x => do a <- acc; promote_types a x) l (Ok d) = Ok p /\ (forall x, under x d = true -> under x p = true) /\ Forall (fun x => under x p = true) l.
Proof.
  induction l as [|b l IH]; intros d; [exists d; repeat split; auto|]. cbn [fold_left bind]. destruct (promote_ok d b) as (q & E & A & B & C). rewrite E.
  destruct (IH q) as (p & E' & A' & F). exists p. split; [exact E'|]. split; [auto|]. constructor; [auto|exact F].
Qed.
Lemma minimal_under : forall l f p, get_minimal l f = Ok p -> Forall (fun x => under x p = true) l.
Proof.
  intros [|d l] f p H; [discriminate|]. cbn [get_minimal] in H. destruct (fold_promote l d) as (q & E & A & F). rewrite E in H. cbn [bind] in H.
  assert (U : under d d = true) by (destruct d; reflexivity).
  destruct (1 <? f).
  - destruct (increase_under _ _ _ H) as [_ I]. constructor; [auto|]. eapply Forall_impl; [|exact F]. auto.
  - injection H as <-. constructor; auto.
Qed.
Lemma minimal_total : forall l f, l <> [] -> f <= 1 -> exists p, get_minimal l f = Ok p.
Proof. intros [|d l] f N F; [contradiction|]. cbn [get_minimal]. destruct (fold_promote l d) as (q & E & _). rewrite E. cbn [bind]. destruct (Z.ltb_spec 1 f); [lia|]. exists q; reflexivity. Qed.
Lemma under_cases : forall a p, under a p = true -> holds a p = true \/ (is_int64 a /\ p = F64).
Proof.
  intros a p H. unfold under in H. apply orb_true_iff in H. destruct H as [H|H]; [left; exact H|right]. apply andb_true_iff in H. destruct H as [H1 H2]. apply mem_iff in H1. apply dname_eqb_iff in H2. split; [|exact H2].
  cbn in H1. unfold is_int64. intuition.
Qed.
Lemma promote_values : forall arrs f d, get_minimal (map fst arrs) f = Ok d -> Forall array_ok arrs -> (d = F64 -> Forall (fun a => ~ is_int64 (fst a)) arrs) ->
  exists outs, promote_arrays arrs f = Ok outs /\ Forall2 (same_values d) arrs outs.
Proof.
  intros arrs f d G O N. unfold promote_arrays. rewrite G. cbn [bind]. apply minimal_under in G. rewrite Forall_map in G. clear f.
  revert G N O. induction arrs as [|a arrs IH]; intros G N O; [exists []; split; [reflexivity|constructor]|]. inversion_clear G as [|? ? G1 G2]. inversion_clear O as [|? ? O1 O2].
  destruct IH as (outs & E & F); [exact G2|intros D; specialize (N D); inversion_clear N; assumption|exact O2|].
  assert (H : holds (fst a) d = true) by (destruct (under_cases _ _ G1) as [H|[H D]]; [exact H|]; specialize (N D); inversion_clear N; contradiction).
  destruct (change_array_ok a d H O1) as (b & Eb & S). exists (b :: outs). rewrite RszProofs.mapM_cons, Eb. cbn [bind]. rewrite E. split; [reflexivity|]. constructor; assumption.
Qed.
Lemma increase_values : forall arrs f outs, Forall array_ok arrs -> increase_resolutions arrs f = Ok outs ->
  Forall2 (fun a b => exists d, increase_itemsize (fst a) f = Ok d /\ same_values d a b) arrs outs.
Proof.
  intros arrs f outs O H. unfold increase_resolutions in H. revert outs H. induction O as [|a arrs A O IH]; intros outs H; [injection H as <-; constructor|].
  rewrite RszProofs.mapM_cons in H. destruct (increase_itemsize (fst a) f) as [d|] eqn:E; [|discriminate]. cbn [bind] in H.
  destruct (mapM (fun a : dname * list Q => increase_itemsize (fst a) f) arrs) as [ds|]; [|discriminate]. cbn [bind combine] in *. rewrite RszProofs.mapM_cons in H. cbn [fst snd] in H.
  destruct (increase_under _ _ _ E) as [HH _]. destruct (change_array_ok a d HH A) as (b & Eb & S). rewrite Eb in H. cbn [bind] in H.
  destruct (mapM (fun p : array * dname => change_array (snd p) (fst p)) (combine arrs ds)) as [r|]; [|discriminate]. cbn [bind] in H. injection H as <-. constructor; [exists d; auto|]. apply IH. reflexivity.
Qed.
Lemma increase_total : forall arrs f, Forall (fun a => exists d, increase_itemsize (fst a) f = Ok d) arrs -> Forall array_ok arrs -> exists outs, increase_resolutions arrs f = Ok outs.
Proof.
  intros arrs f H O. unfold increase_resolutions. induction H as [|a arrs (d & E) H IH]; [exists []; reflexivity|]. inversion_clear O as [|? ? A O']. specialize (IH O'). destruct IH as [outs IH].
  rewrite RszProofs.mapM_cons, E. cbn [bind]. destruct (mapM (fun a : dname * list Q => increase_itemsize (fst a) f) arrs) as [ds|]; [|discriminate]. cbn [bind combine] in *. rewrite RszProofs.mapM_cons. cbn [fst snd].
  destruct (increase_under _ _ _ E) as [HH _]. destruct (change_array_ok a d HH A) as (b & Eb & S). rewrite Eb. cbn [bind]. rewrite IH. eexists; reflexivity.
Qed.
Definition kind_eqb (a b : kind) : bool := match a, b with KB, KB | KU, KU | KI, KI | KF, KF => true | _, _ => false end.
Lemma kind_eqb_iff : forall a b, kind_eqb a b = true <-> a = b.
Proof. destruct a, b; cbn; split; congruence. Qed.
Lemma increase_iff' : all2 (fun d d' => forallb (fun f => Bool.eqb (match increase_itemsize d f with Ok p => dname_eqb p d' | Err _ => false end)
  (negb (dname_eqb d Bool) && kind_eqb (fst (kind_bits d')) (fst (kind_bits d)) && (bits d' =? bits d * f))) [1; 2; 4; 8]) = true.
Proof. vm_compute. reflexivity. Qed.
Lemma increase_iff : forall d f d', increase_itemsize d f = Ok d' <-> In f [1; 2; 4; 8] /\ d <> Bool /\ fst (kind_bits d') = fst (kind_bits d) /\ bits d' = bits d * f.
Proof.
  intros d f d'. destruct (in_dec Z.eq_dec f [1; 2; 4; 8]) as [F|F].
  - pose proof (all2_iff _ increase_iff' d d') as H. cbn beta in H. rewrite forallb_forall in H. specialize (H f F). cbn beta in H. apply eqb_prop in H. split.
    + intros E. rewrite E in H. rewrite (proj2 (dname_eqb_iff d' d') eq_refl) in H. symmetry in H. apply andb_true_iff in H. destruct H as [H H3]. apply andb_true_iff in H. destruct H as [H1 H2].
      apply kind_eqb_iff in H2. apply Z.eqb_eq in H3. apply negb_true_iff in H1. repeat split; try assumption. intros D. apply dname_eqb_iff in D. congruence.
    + intros (_ & B & K & S). apply kind_eqb_iff in K. apply Z.eqb_eq in S. rewrite K, S in H. assert (B' : dname_eqb d Bool = false) by (destruct (dname_eqb d Bool) eqn:X; [apply dname_eqb_iff in X; contradiction|reflexivity]). rewrite B' in H. cbn [negb andb] in H.
      destruct (increase_itemsize d f) as [q|]; [|discriminate]. apply dname_eqb_iff in H. congruence.
  - split; [|intros [X _]; contradiction]. intros E. unfold increase_itemsize in E. destruct ((f =? 1) || (f =? 2) || (f =? 4) || (f =? 8)) eqn:X; [apply factor_cases in X; contradiction|discriminate].
Qed.
Lemma increase_errors : forall d f, (~ In f [1; 2; 4; 8] \/ d = Bool -> increase_itemsize d f = Err AssertionError) /\
  (In f [1; 2; 4; 8] -> d <> Bool -> (forall d', fst (kind_bits d') = fst (kind_bits d) -> bits d' <> bits d * f) -> increase_itemsize d f = Err TypeError_).
Proof.
  intros d f. split.
  - intros [H| ->]; unfold increase_itemsize.
    + destruct ((f =? 1) || (f =? 2) || (f =? 4) || (f =? 8)) eqn:E; [apply factor_cases in E; contradiction|reflexivity].
    + destruct (negb _); reflexivity.
  - intros F B N. destruct (increase_itemsize d f) as [d'|e] eqn:E.
    + apply increase_iff in E. destruct E as (_ & _ & K & S). exfalso. exact (N d' K S).
    + f_equal. unfold increase_itemsize in E. apply factor_cases in F. rewrite F in E. cbn [negb] in E. unfold dtype_of in E. destruct (kind_bits d) as [k b] eqn:EK.
      destruct k; [destruct d; cbn in EK; congruence| | |]; repeat match type of E with (if ?c then _ else _) = _ => destruct c; [discriminate|] end; congruence.
Qed.

(** ** Minimality *)
Lemma odd_float : forall p z m k, 0 < p -> 2 ^ p < z -> Z.odd z = true -> Z.abs m <= 2 ^ p -> ~ (inject_Z z == inject_Z m * pow2 k)%Q.
Proof.
  intros p z m k P Z0 O M E. destruct (Z.le_gt_cases k 0) as [K|K].
  - assert (L : (inject_Z z <= inject_Z (Z.abs m))%Q); [|rewrite <- Zle_Qle in L; lia].
    rewrite E. pose proof (pow2_le _ _ K) as L1. rewrite pow2_0 in L1. pose proof (pow2_pos k) as L2.
    assert (A : (inject_Z m <= inject_Z (Z.abs m))%Q) by (rewrite <- Zle_Qle; lia). assert (B : (0 <= inject_Z (Z.abs m))%Q) by (change 0%Q with (inject_Z 0); rewrite <- Zle_Qle; lia).
    apply (Qle_trans _ (inject_Z (Z.abs m) * pow2 k)%Q); [apply Qmult_le_compat_r; lra|]. setoid_replace (inject_Z (Z.abs m)) with (inject_Z (Z.abs m) * 1)%Q at 2 by ring. rewrite !(Qmult_comm (inject_Z (Z.abs m))). apply Qmult_le_compat_r; assumption.
  - rewrite pow2_Z in E by lia. rewrite <- inject_Z_mult in E; apply (proj1 (inject_Z_injective _ _)) in E. subst z. rewrite Z.odd_mul, Z.odd_pow in O by lia. rewrite andb_false_r in O. discriminate.
Qed.
Definition witness (a b : dname) : Q :=
  match dty a, dty b with
  | DF _ _, DF p _ => inject_Z (2 ^ p + 1)
  | DF _ _, _ => 1 # 2
  | _, DF p _ => inject_Z (2 ^ p + 1)
  | _, _ => inject_Z (if min_of b <=? min_of a then max_of a else min_of a)
  end.
Lemma float_has : forall d z, is_float_name d = true -> (exists p e, dty d = DF p e /\ Z.abs z <= 2 ^ p) -> Z.abs z <= max_of d -> value_of d (inject_Z z).
Proof.
  intros d z F (p & e & E & B) M. destruct (float_form d F) as (p' & e' & E' & _ & _ & MX & _). rewrite E in E'. injection E' as <- <-. unfold value_of. rewrite E. split.
  - exists z, 0. split; [apply pow2_1|exact B].
  - rewrite <- MX. apply qabs_le. rewrite <- inject_Z_opp, <- !Zle_Qle. lia.
Qed.
Lemma holds_complete : forall a b, includes b a -> holds a b = true.
Proof.
  intros a b I. destruct (holds a b) eqn:H; [reflexivity|exfalso]. 
  destruct (is_float_name a) eqn:FA, (is_float_name b) eqn:FB.
  - destruct (float_form a FA) as (p & e & EA & _). destruct (float_form b FB) as (p' & e' & EB & P' & _).
    assert (V : value_of a (inject_Z (2 ^ p' + 1))).
    { apply float_has; [exact FA|exists p, e; split; [exact EA|]|]; destruct a; try discriminate FA; destruct b; try discriminate FB; try (vm_compute in H; discriminate H); cbn in EA, EB; injection EA as <- <-; injection EB as <- <-; apply Z.leb_le; vm_compute; reflexivity. }
    apply I in V. unfold value_of in V. rewrite EB in V. destruct V as [(m & k & V & M) _]. revert V. apply (odd_float p'); [exact P'|lia| |exact M].
    rewrite Z.odd_add, Z.odd_pow by lia. reflexivity.
  - assert (V : value_of a (1 # 2)).
    { destruct (float_form a FA) as (p & e & EA & P & EE & MX & _). unfold value_of. rewrite EA. split.
      - exists 1, (-1). split; [vm_compute; reflexivity|]. pose proof (Z.pow_pos_nonneg 2 p). lia.
      - rewrite <- MX. apply qabs_le. assert (X : 1 <= max_of a) by (destruct a; try discriminate FA; apply Z.leb_le; vm_compute; reflexivity). rewrite Zle_Qle in X. change (inject_Z 1) with 1%Q in X. split; lra. }
    apply I in V. apply (value_int b _ FB) in V. destruct V as (z & V & _). unfold Qeq in V. cbn in V. lia.
  - destruct (float_form b FB) as (p & e & EB & P & _).
    assert (V : value_of a (inject_Z (2 ^ p + 1))).
    { apply (value_int a _ FA). exists (2 ^ p + 1). split; [reflexivity|]. destruct a; try discriminate FA; destruct b; try discriminate FB; try (vm_compute in H; discriminate H); cbn in EB; injection EB as <- <-; split; apply Z.leb_le; vm_compute; reflexivity. }
    apply I in V. unfold value_of in V. rewrite EB in V. destruct V as [(m & k & V & M) _]. revert V. apply (odd_float p); [exact P|lia| |exact M].
    rewrite Z.odd_add, Z.odd_pow by lia. reflexivity.
  - assert (X : min_of b <= min_of a /\ max_of a <= max_of b).
    { assert (L : min_of a <= 0 <= max_of a) by (pose proof (int_range_ne _ _ _ (int_range_name a FA)); lia). split.
      - assert (V : value_of a (inject_Z (min_of a))) by (apply (value_int a _ FA); exists (min_of a); split; [reflexivity|lia]). apply I in V. apply (value_int b _ FB) in V. destruct V as (z & V & R). apply (proj1 (inject_Z_injective _ _)) in V. lia.
      - assert (V : value_of a (inject_Z (max_of a))) by (apply (value_int a _ FA); exists (max_of a); split; [reflexivity|lia]). apply I in V. apply (value_int b _ FB) in V. destruct V as (z & V & R). apply (proj1 (inject_Z_injective _ _)) in V. lia. }
    assert (Y : holds a b = (min_of b <=? min_of a) && (max_of a <=? max_of b)) by (unfold holds, is_float_name in *; destruct (dty a), (dty b); try discriminate; reflexivity).
    rewrite Y in H. apply andb_false_iff in H. rewrite !Z.leb_gt in H. lia.
Qed.
Lemma minimal_pair' : all2 (fun a b => forallb (fun t => match promote_types a b with Ok p => implb (holds a p && holds b p && holds a t && holds b t) (bits p <=? bits t) | Err _ => false end) all_dnames) = true.
Proof. vm_compute. reflexivity. Qed.
Lemma minimal_pair : forall a b p t, get_minimal [a; b] 1 = Ok p -> includes p a -> includes p b -> includes t a -> includes t b -> bits p <= bits t.
Proof.
  intros a b p t G A B C D. cbn in G. destruct (promote_types a b) as [q|] eqn:E; [|discriminate]. cbn in G. injection G as ->.
  pose proof (all2_iff _ minimal_pair' a b) as H. cbn beta in H. rewrite forallb_forall in H. specialize (H t (all_dnames_in t)). cbn beta in H. rewrite E in H.
  rewrite (holds_complete _ _ A), (holds_complete _ _ B), (holds_complete _ _ C), (holds_complete _ _ D) in H. apply Z.leb_le. exact H.
Qed.
Lemma minimal_includes : forall l f p a, get_minimal l f = Ok p -> In a l -> includes p a \/ (is_int64 a /\ p = F64).
Proof.
  intros l f p a G I. apply minimal_under in G. rewrite Forall_forall in G. destruct (under_cases _ _ (G a I)) as [H|H]; [left; apply holds_includes; exact H|right; exact H].
Qed.
