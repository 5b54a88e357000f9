(** C90: typescript_schema describes every property on a line of its own. *)
From Coq Require Import String Ascii.
From Coq Require Import List Bool Arith Lia.
From Verif Require Import PyBase ModelTypescript.
Import ListNotations.
Local Open Scope list_scope.
Local Open Scope string_scope.

(** * Vocabulary *)
(** The names of the simple types. *)
Definition type_text (s : string) : string :=
  if s =? "integer" then "int" else if s =? "number" then "float" else if s =? "boolean" then "bool" else s.

(** r is what follows the last slash of s. *)
Definition last_part (s r : string) : Prop :=
  (forall a b, r <> a ++ "/" ++ b) /\ (s = r \/ exists p, s = p ++ "/" ++ r).

(** t is the texts of l with bars between. *)
Inductive barred : list string -> string -> Prop :=
| bar_nil : barred [] ""
| bar_one x : barred [x] x
| bar_more x y l t : barred (y :: l) t -> barred (x :: y :: l) (x ++ " | " ++ t).

(** A literal in an enum. *)
Inductive literal : lit -> string -> Prop :=
| l_str s : literal (LStr s) (quote ++ s ++ quote)
| l_null : literal LNull "null"
| l_true : literal (LBool true) "True"
| l_false : literal (LBool false) "False"
| l_other s : literal (LOther s) s.
Definition enum_text (l : list lit) (t : string) : Prop := exists xs, Forall2 literal l xs /\ barred xs t.

Definition typed (f : spec) (s : string) : Prop := s_type f = Some (One s).

(** The items of an array: in a field, and in an alternative. *)
Inductive item_text : option spec -> string -> Prop :=
| i_none : item_text None "any"
| i_type i s : typed i s -> item_text (Some i) (type_text s)
| i_ref i s r : s_type i = None -> s_ref i = Some s -> last_part s r -> item_text (Some i) r
| i_enum i l t : s_type i = None -> s_ref i = None -> s_enum i = Some l -> enum_text l t -> item_text (Some i) ("(" ++ t ++ ")")
| i_any i : s_type i = None -> s_ref i = None -> s_enum i = None -> item_text (Some i) "any".
Inductive alt_item_text : spec -> string -> Prop :=
| ai_ref i s r : (forall l, s_type i <> Some (Many l)) -> s_ref i = Some s -> last_part s r -> alt_item_text i r
| ai_type i s : typed i s -> s_ref i = None -> alt_item_text i (type_text s)
| ai_any i : s_type i = None -> s_ref i = None -> alt_item_text i "any".

(** An alternative of anyOf: its text, or nothing. *)
Inductive alternative : spec -> option string -> Prop :=
| a_null o : typed o "null" -> alternative o None
| a_array o i t : typed o "array" -> s_items o = Some i -> alt_item_text i t -> alternative o (Some (t ++ "[]"))
| a_type o s : typed o s -> s <> "null" -> (s = "array" -> s_items o = None) -> alternative o (Some (type_text s))
| a_ref o s r : s_type o = None -> s_ref o = Some s -> last_part s r -> alternative o (Some r)
| a_enum o l t : s_type o = None -> s_ref o = None -> s_enum o = Some l -> enum_text l t -> alternative o (Some t)
| a_other o : s_type o = None -> s_ref o = None -> s_enum o = None -> alternative o None.
Fixpoint present {A} (l : list (option A)) : list A :=
  match l with [] => [] | Some x :: l => x :: present l | None :: l => present l end.

(** The type of a field. *)
Inductive field_type : spec -> string -> Prop :=
| f_enum f l t : s_enum f = Some l -> enum_text l t -> field_type f t
| f_any f l xs : s_enum f = None -> s_anyOf f = Some l -> Forall2 alternative l xs -> present xs = [] ->
    (forall o, In o l -> ~ typed o "null") -> field_type f "any"
| f_union f l xs t : s_enum f = None -> s_anyOf f = Some l -> Forall2 alternative l xs -> present xs <> [] ->
    (forall o, In o l -> ~ typed o "null") -> barred (present xs) t -> field_type f t
| f_nullable f l xs t : s_enum f = None -> s_anyOf f = Some l -> Forall2 alternative l xs ->
    (exists o, In o l /\ typed o "null") -> barred (List.app (present xs) ["null"]) t -> field_type f t
| f_array f t : s_enum f = None -> s_anyOf f = None -> typed f "array" -> item_text (s_items f) t -> field_type f (t ++ "[]")
| f_ref f s r : s_enum f = None -> s_anyOf f = None -> ~ typed f "array" -> s_ref f = Some s -> last_part s r -> field_type f r
| f_simple f s : s_enum f = None -> s_anyOf f = None -> s <> "array" -> s_ref f = None -> typed f s ->
    (forall b, s <> b ++ "?") -> field_type f (type_text s)
| f_question f s : s_enum f = None -> s_anyOf f = None -> s_ref f = None -> typed f (s ++ "?") -> field_type f (type_text s)
| f_none f : s_enum f = None -> s_anyOf f = None -> s_ref f = None -> s_type f = None -> field_type f "any".

(** The field admits null, as far as this is looked at. *)
Definition nullable (f : spec) : Prop :=
  match s_enum f, s_anyOf f with
  | Some l, _ => In LNull l
  | None, Some l => exists o, In o l /\ typed o "null"
  | None, None => s_ref f = None /\ exists s, typed f (s ++ "?")
  end.

(** * Proofs *)
Lemma app_s_assoc (a b c : string) : (a ++ b) ++ c = a ++ b ++ c.
Proof. induction a as [|x a IH]; cbn; [reflexivity|]. rewrite IH. reflexivity. Qed.
Lemma app_s_nil (a : string) : a ++ "" = a.
Proof. induction a as [|x a IH]; cbn; [reflexivity|]. rewrite IH. reflexivity. Qed.

Lemma type_map_one s : type_map (One s) = Ret (type_text s).
Proof.
  unfold type_text.
  destruct (String.eqb_spec s "integer") as [->|A]; [reflexivity|].
  destruct (String.eqb_spec s "number") as [->|B]; [reflexivity|].
  destruct (String.eqb_spec s "boolean") as [->|C]; [reflexivity|].
  unfold type_map.
  repeat match goal with
  | |- (match ?s with EmptyString => _ | String _ _ => _ end) = _ => destruct s
  | |- (match ?a with Ascii _ _ _ _ _ _ _ _ => _ end) = _ => destruct a
  | |- (if ?b then _ else _) = _ => destruct b
  end; try reflexivity; congruence.
Qed.

Lemma barred_join l t : barred l t <-> join_bar l = t.
Proof.
  split.
  - induction 1 as [|x|x y l t B IH]; [reflexivity|reflexivity|].
    change (join_bar (x :: y :: l)) with (x ++ " | " ++ join_bar (y :: l)). rewrite IH. reflexivity.
  - intros <-. induction l as [|x l IH]; [constructor|]. destruct l as [|y l]; [constructor|].
    change (join_bar (x :: y :: l)) with (x ++ " | " ++ join_bar (y :: l)). constructor. exact IH.
Qed.
Lemma literal_format v x : literal v x <-> format_enum v = x.
Proof. split; [intros []; reflexivity|intros <-; destruct v as [| |[]|]; constructor]. Qed.
Lemma enum_format l t : enum_text l t <-> format_enum_union l = t.
Proof.
  unfold enum_text, format_enum_union. split.
  - intros (xs & F & B). apply barred_join in B. rewrite <- B. f_equal. clear B.
    induction F as [|v x l xs H F IH]; [reflexivity|]. cbn. f_equal; [apply literal_format, H|]. exact IH.
  - intro E. exists (map format_enum l). split; [|apply barred_join, E].
    clear E. induction l; constructor; [apply literal_format; reflexivity|assumption].
Qed.

Lemma last_segment_spec s : forall w, (forall a b, w <> a ++ "/" ++ b) -> last_part (w ++ s) (last_segment w s).
Proof.
  induction s as [|c s IH]; intros w W; cbn [last_segment].
  - rewrite app_s_nil. split; [exact W|left; reflexivity].
  - destruct (Ascii.eqb_spec c "/") as [->|N].
    + destruct (IH "" ltac:(intros a b E; destruct a; discriminate)) as [A B]. cbn [String.append] in B.
      split; [exact A|]. right. destruct B as [B|[p B]].
      * exists w. rewrite <- B. reflexivity.
      * exists (w ++ "/" ++ p). rewrite B at 1. rewrite !app_s_assoc. reflexivity.
    + replace (w ++ String c s) with ((w ++ String c "") ++ s) by (rewrite app_s_assoc; reflexivity).
      apply IH. intros a b E.
      assert (Z : forall w a b, w ++ String c "" = a ++ "/" ++ b -> exists b', w = a ++ "/" ++ b').
      { clear - N. induction w as [|x w IHw]; intros a b E.
        - destruct a as [|y a]; cbn in E; [injection E as -> _; congruence|].
          injection E as _ E. destruct a; discriminate.
        - destruct a as [|y a]; cbn in E.
          + injection E as -> E. exists w. reflexivity.
          + injection E as -> E. destruct (IHw a b E) as [b' ->]. exists b'. reflexivity. }
      destruct (Z w a b E) as [b' ->]. apply (W a b'). reflexivity.
Qed.
Lemma last_part_fun s r r' : last_part s r -> last_part s r' -> r = r'.
Proof.
  assert (U : forall p p' a b, p ++ "/" ++ a = p' ++ "/" ++ b ->
            (forall x y, a <> x ++ "/" ++ y) -> (forall x y, b <> x ++ "/" ++ y) -> a = b).
  { induction p as [|x p IH]; intros [|y p'] a b E A B; cbn in E.
    - injection E. auto.
    - injection E as _ E. exfalso. apply (A p' b E).
    - injection E as _ E. exfalso. apply (B p a). symmetry. exact E.
    - injection E as _ E. apply (IH p' a b E A B). }
  intros [A [->|[p ->]]] [B [E|[p' E]]].
  - exact E.
  - exfalso. apply (A _ _ E).
  - exfalso. apply (B p r). symmetry. exact E.
  - apply (U p p' r r' E A B).
Qed.
Lemma last_segment_iff s r : last_part s r <-> last_segment "" s = r.
Proof.
  assert (H : last_part s (last_segment "" s)).
  { apply (last_segment_spec s ""). intros a b E. destruct a; discriminate. }
  split; [intro L; apply (last_part_fun s); assumption|intros <-; exact H].
Qed.

Lemma type_is_typed s f : type_is s (s_type f) = true <-> typed f s.
Proof.
  unfold typed. destruct (s_type f) as [[x|l]|]; cbn; [|split; congruence|split; congruence].
  rewrite String.eqb_eq. split; congruence.
Qed.

Lemma chop_spec s : (forall b, chop s = Some b <-> s = b ++ "?").
Proof.
  induction s as [|c s IH]; intro b.
  - split; [discriminate|]. destruct b; discriminate.
  - destruct s as [|d s].
    + cbn [chop]. destruct (Ascii.eqb_spec c "?") as [->|N].
      * split; [intros [= <-]; reflexivity|]. destruct b as [|x b]; [reflexivity|]. intro E. injection E as _ E. destruct b; discriminate.
      * split; [discriminate|]. destruct b as [|x b]; cbn; intro E; [injection E as ->; congruence|].
        injection E as _ E. destruct b; discriminate.
    + change (chop (String c (String d s))) with (match chop (String d s) with Some r => Some (String c r) | None => None end).
      destruct (chop (String d s)) as [r|] eqn:E.
      * pose proof (proj1 (IH r) eq_refl) as Q. split.
        -- intros [= <-]. rewrite Q. reflexivity.
        -- destruct b as [|x b]; cbn; [intros [= _ Z]; discriminate|]. intros [= -> Z].
           apply (IH b) in Z. injection Z as ->. reflexivity.
      * split; [discriminate|]. destruct b as [|x b]; cbn; [intros [= _ Z]; discriminate|].
        intros [= _ Z]. apply IH in Z. discriminate.
Qed.

Lemma anyof_option_spec o x : anyof_option o = Ret x <-> alternative o x.
Proof.
  unfold anyof_option. destruct (type_is "null" (s_type o)) eqn:NU.
  { apply type_is_typed in NU. split; [intros [= <-]; constructor; assumption|].
    unfold typed in *. intros H; inversion H; unfold typed in *; subst; try congruence. }
  assert (NN : ~ typed o "null") by (rewrite <- type_is_typed; congruence).
  destruct (s_type o) as [t|] eqn:T.
  - destruct (type_is "array" (Some t)) eqn:AR.
    + assert (TA : typed o "array") by (apply type_is_typed; rewrite T; exact AR).
      assert (t = One "array") as -> by (unfold typed in TA; congruence).
      destruct (s_items o) as [i|] eqn:I.
      * split.
        -- intro H. destruct (s_type i) as [[s|m]|] eqn:TI.
           ++ rewrite type_map_one in H. cbn [bind] in H. injection H as <-.
              destruct (s_ref i) as [r|] eqn:R; eapply a_array; try eassumption.
              ** eapply ai_ref; [congruence|exact R|apply last_segment_iff; reflexivity].
              ** apply ai_type; assumption.
           ++ discriminate.
           ++ cbn [bind] in H. injection H as <-.
              destruct (s_ref i) as [r|] eqn:R; eapply a_array; try eassumption.
              ** eapply ai_ref; [congruence|exact R|apply last_segment_iff; reflexivity].
              ** apply ai_any; assumption.
        -- intro H. inversion H as [|? i' t' ? I' AI|? s ? ? Q| | |]; unfold typed in *; subst; try congruence.
           ++ assert (i' = i) as -> by congruence. inversion AI as [? s r M R L|? s TI R|? TI R]; subst; unfold typed in *.
              ** rewrite R. apply last_segment_iff in L. rewrite L.
                 destruct (s_type i) as [[u|m]|]; [rewrite type_map_one; reflexivity|exfalso; apply (M m); reflexivity|reflexivity].
              ** rewrite TI, R, type_map_one. reflexivity.
              ** rewrite TI, R. reflexivity.
           ++ assert (s = "array") as -> by congruence. specialize (Q eq_refl). congruence.
      * split; [intros [= <-]; apply (a_type o "array"); [exact TA|discriminate|intros _; exact I]|].
        intro H. inversion H as [|? i' t' ? I' AI|? s ? ? Q| | |]; unfold typed in *; subst; try congruence.
        assert (s = "array") as -> by congruence. reflexivity.
    + assert (TA : ~ typed o "array") by (rewrite <- type_is_typed, T, AR; congruence).
      destruct t as [s|m].
      * rewrite type_map_one. cbn [bind].
        split.
        -- intro H. assert (x = Some (type_text s)) as -> by congruence.
           apply a_type; [exact T|intros ->; apply NN; exact T|intros ->; exfalso; apply TA; exact T].
        -- intro H. inversion H as [|? i' t' ? I' AI|? s' ? ? Q| | |]; unfold typed in *; subst; congruence.
      * cbn [bind type_map]. split; [discriminate|].
        intro H. inversion H; unfold typed in *; subst; congruence.
  - destruct (s_ref o) as [r|] eqn:R.
    + split; [intros [= <-]; eapply a_ref; [exact T|exact R|apply last_segment_iff; reflexivity]|].
      intro H. inversion H; unfold typed in *; subst; try congruence.
      assert (s = r) as -> by congruence. repeat f_equal. apply last_segment_iff. assumption.
    + destruct (s_enum o) as [l|] eqn:EN.
      * split; [intros [= <-]; eapply a_enum; [exact T|exact R|exact EN|apply enum_format; reflexivity]|].
        intro H. inversion H; unfold typed in *; subst; try congruence.
        assert (l0 = l) as -> by congruence. repeat f_equal. apply enum_format. assumption.
      * split; [intros [= <-]; apply a_other; assumption|].
        intro H. inversion H; unfold typed in *; subst; try congruence; reflexivity.
Qed.

Lemma anyof_parts_spec l ps : anyof_parts l = Ret ps <-> exists xs, Forall2 alternative l xs /\ ps = present xs.
Proof.
  revert ps. induction l as [|o l IH]; intro ps; cbn [anyof_parts].
  - split; [intros [= <-]; exists []; split; [constructor|reflexivity]|]. intros (xs & F & ->). inversion F. reflexivity.
  - split.
    + intro H. destruct (anyof_option o) as [x|] eqn:O; [|discriminate]. cbn [bind] in H.
      destruct (anyof_parts l) as [qs|] eqn:P; [|discriminate]. cbn [bind] in H. injection H as <-.
      destruct (proj1 (IH qs) eq_refl) as (xs & F & ->). exists (x :: xs).
      split; [constructor; [apply anyof_option_spec, O|exact F]|]. destruct x; reflexivity.
    + intros (xs & F & ->). inversion F as [|? x ? xs' A F']; subst. apply anyof_option_spec in A. rewrite A. cbn [bind].
      rewrite (proj2 (IH (present xs'))); [|exists xs'; split; [exact F'|reflexivity]]. cbn [bind].
      destruct x; reflexivity.
Qed.
Lemma alternative_fun o x y : alternative o x -> alternative o y -> x = y.
Proof. rewrite <- !anyof_option_spec. congruence. Qed.
Lemma alternatives_fun l xs ys : Forall2 alternative l xs -> Forall2 alternative l ys -> xs = ys.
Proof.
  intro F. revert ys. induction F as [|o x l xs A F IH]; intros ys G; inversion G; subst; [reflexivity|].
  f_equal; [eapply alternative_fun; eassumption|apply IH; assumption].
Qed.

Lemma existsb_null l : existsb is_null l = true <-> In LNull l.
Proof.
  rewrite existsb_exists. split; [intros ([] & I & H); try discriminate; exact I|].
  intro I. exists LNull. split; [exact I|reflexivity].
Qed.
Lemma existsb_null_type l : existsb (fun o => type_is "null" (s_type o)) l = true <-> exists o, In o l /\ typed o "null".
Proof.
  rewrite existsb_exists. split; intros (o & I & H); exists o; (split; [exact I|]); apply type_is_typed; exact H.
Qed.
Lemma item_spec i (r : outcome string) :
  r = (match i with
       | None => Ret "any"
       | Some i =>
           match s_type i with
           | Some t => type_map t
           | None => match s_ref i with
                     | Some r => Ret (last_segment "" r)
                     | None => match s_enum i with
                               | Some l => Ret ("(" ++ format_enum_union l ++ ")")
                               | None => Ret "any"
                               end
                     end
           end
       end) -> forall t, r = Ret t <-> item_text i t.
Proof.
  intros -> t. destruct i as [i|].
  - destruct (s_type i) as [[s|m]|] eqn:T.
    + rewrite type_map_one. split; [intros [= <-]; apply i_type; exact T|].
      intro H. inversion H; subst; unfold typed in *; congruence.
    + split; [discriminate|]. intro H. inversion H; subst; unfold typed in *; congruence.
    + destruct (s_ref i) as [s|] eqn:R.
      * split; [intros [= <-]; eapply i_ref; [exact T|exact R|apply last_segment_iff; reflexivity]|].
        intro H. inversion H; subst; unfold typed in *; try congruence.
        assert (s0 = s) as -> by congruence. f_equal. apply last_segment_iff. assumption.
      * destruct (s_enum i) as [l|] eqn:E.
        -- split; [intros [= <-]; eapply i_enum; [exact T|exact R|exact E|apply enum_format; reflexivity]|].
           intro H. inversion H as [|? ? TT|? ? ? ? RR|? l' u ? ? EE X|]; subst; unfold typed in *; try congruence.
           assert (l' = l) as -> by congruence. apply enum_format in X. rewrite X. reflexivity.
        -- split; [intros [= <-]; apply i_any; assumption|].
           intro H. inversion H; subst; unfold typed in *; congruence.
  - split; [intros [= <-]; constructor|]. intro H. inversion H. reflexivity.
Qed.

Lemma orb_iff r b (P : Prop) : (b = true <-> P) -> (negb r || b = true <-> r = false \/ P).
Proof. intros <-. destruct r, b; cbn; intuition congruence. Qed.
Lemma bool_iff (a b : bool) P : (a = true <-> P) -> (b = true <-> P) -> a = b.
Proof. intros A B. destruct a, b; try reflexivity; [symmetry; apply B, A; reflexivity|apply A, B; reflexivity]. Qed.

(** The type of a field is the one described above, and it is marked optional exactly
    if it need not be given or admits null. *)
Theorem C90_type f r t o :
  extract f r = Ret (t, o) <-> field_type f t /\ (o = true <-> r = false \/ nullable f).
Proof.
  unfold extract, nullable. destruct (s_enum f) as [l|] eqn:EN.
  { assert (OI := orb_iff r _ _ (existsb_null l)). split.
    - intros [= <- <-]. split; [eapply f_enum; [exact EN|apply enum_format; reflexivity]|exact OI].
    - intros [H O]. rewrite (bool_iff _ _ _ OI O). inversion H; subst; try congruence.
      assert (l0 = l) as -> by congruence. repeat f_equal. apply enum_format. assumption. }
  destruct (s_anyOf f) as [l|] eqn:AN.
  { assert (OI := orb_iff r _ _ (existsb_null_type l)).
    destruct (existsb (fun o => type_is "null" (s_type o)) l) eqn:NU.
    - assert (X : exists o, In o l /\ typed o "null") by (apply existsb_null_type; exact NU). split.
      + intro H. destruct (anyof_parts l) as [ps|] eqn:P; [|discriminate]. cbn [bind] in H.
        apply anyof_parts_spec in P. destruct P as (xs & F & ->).
        assert (E : t = join_bar (List.app (present xs) ["null"]) /\ o = negb r || true).
        { destruct (present xs); injection H as <- <-; split; reflexivity. }
        destruct E as [-> ->]. split; [|exact OI].
        eapply f_nullable; [exact EN|exact AN|exact F|exact X|apply barred_join; reflexivity].
      + intros [H O]. rewrite (bool_iff _ _ _ O OI). inversion H as [|? l' xs ? A F PE NX|? l' xs ? ? A F PE NX|? l' xs ? ? A F X' B| | | | |]; subst; try congruence.
        * exfalso. assert (l' = l) as -> by congruence. destruct X as (o' & I & T). apply (NX o' I T).
        * exfalso. assert (l' = l) as -> by congruence. destruct X as (o' & I & T). apply (NX o' I T).
        * assert (l' = l) as -> by congruence.
          rewrite (proj2 (anyof_parts_spec l (present xs))) by (exists xs; split; [exact F|reflexivity]).
          cbn [bind]. apply barred_join in B. rewrite <- B. destruct (present xs); reflexivity.
    - assert (NX : forall o, In o l -> ~ typed o "null").
      { intros o' I T. assert (false = true); [|discriminate]. rewrite <- NU. apply existsb_null_type. exists o'. split; assumption. }
      split.
      + intro H. destruct (anyof_parts l) as [ps|] eqn:P; [|discriminate]. cbn [bind] in H.
        apply anyof_parts_spec in P. destruct P as (xs & F & ->). destruct (present xs) as [|p ps] eqn:PX.
        * injection H as <- <-. split; [|exact OI]. eapply f_any; eassumption.
        * injection H as <- <-. split; [|exact OI].
          eapply f_union; [exact EN|exact AN|exact F|congruence|exact NX|rewrite PX; apply barred_join; reflexivity].
      + intros [H O]. rewrite (bool_iff _ _ _ O OI). inversion H as [|? l' xs ? A F PE NX'|? l' xs ? ? A F PE NX' B|? l' xs ? ? A F X' B| | | | |]; subst; try congruence.
        * assert (l' = l) as -> by congruence.
          rewrite (proj2 (anyof_parts_spec l (present xs))) by (exists xs; split; [exact F|reflexivity]).
          cbn [bind]. rewrite PE. reflexivity.
        * assert (l' = l) as -> by congruence.
          rewrite (proj2 (anyof_parts_spec l (present xs))) by (exists xs; split; [exact F|reflexivity]).
          cbn [bind]. apply barred_join in B. rewrite <- B. destruct (present xs); [congruence|reflexivity].
        * exfalso. assert (l' = l) as -> by congruence. destruct X' as (o' & I & T). apply (NX o' I T). }
  destruct (type_is "array" (s_type f)) eqn:AR.
  { apply type_is_typed in AR.
    assert (OI : negb r = true <-> r = false \/ (s_ref f = None /\ exists s, typed f (s ++ "?"))).
    { split; [intro H; left; destruct r; [discriminate|reflexivity]|]. intros [->|[_ [s T]]]; [reflexivity|].
      exfalso. unfold typed in *. assert (E : "array" = s ++ "?") by congruence.
      apply chop_spec in E. discriminate. }
    match goal with |- bind ?m _ = _ <-> _ => pose proof (item_spec (s_items f) m eq_refl) as IS; destruct m as [i|e] end.
    - cbn [bind]. split.
      + intros [= <- <-]. split; [|exact OI]. apply f_array; try assumption. apply IS. reflexivity.
      + intros [H O]. rewrite (bool_iff _ _ _ O OI). inversion H; subst; unfold typed in *; try congruence.
        * apply IS in H3. injection H3 as ->. reflexivity.
        * exfalso. assert (E : "array" = s ++ "?") by congruence. apply chop_spec in E. discriminate.
    - cbn [bind]. split; [discriminate|]. intros [H O]. inversion H; subst; unfold typed in *; try congruence.
      * apply IS in H3. discriminate.
      * exfalso. assert (E : "array" = s ++ "?") by congruence. apply chop_spec in E. discriminate. }
  assert (NA : ~ typed f "array") by (rewrite <- type_is_typed; congruence).
  destruct (s_ref f) as [s|] eqn:R.
  { assert (OI : negb r = true <-> r = false \/ (Some s = None /\ exists s, typed f (s ++ "?"))).
    { split; [intro H; left; destruct r; [discriminate|reflexivity]|]. intros [->|[[=] _]]. reflexivity. }
    split.
    - intros [= <- <-]. split; [|exact OI]. eapply f_ref; try eassumption. apply last_segment_iff. reflexivity.
    - intros [H O]. rewrite (bool_iff _ _ _ O OI). inversion H; subst; unfold typed in *; try congruence.
      assert (s0 = s) as -> by congruence. repeat f_equal. apply last_segment_iff. assumption. }
  destruct (s_type f) as [[s|m]|] eqn:T.
  - destruct (chop s) as [b|] eqn:CH.
    + rewrite type_map_one. cbn [bind]. pose proof (proj1 (chop_spec s b) CH) as E.
      assert (OI : true = true <-> r = false \/ (@None string = None /\ exists s, typed f (s ++ "?"))).
      { split; [|reflexivity]. intros _. right. split; [reflexivity|]. exists b. unfold typed. congruence. }
      split.
      * intros [= <- <-]. split; [|exact OI]. apply f_question; try assumption. unfold typed. congruence.
      * intros [H O]. rewrite (bool_iff _ _ _ O OI). clear E OI O.
        inversion H as [| | | | | |? u ? ? ? ? TU NQ|? u ? ? ? TU|]; subst; unfold typed in *; try congruence.
        -- exfalso. apply (NQ b). apply chop_spec. congruence.
        -- assert (Q : s = u ++ "?") by congruence. apply chop_spec in Q. rewrite CH in Q. injection Q as ->. reflexivity.
    + rewrite type_map_one. cbn [bind].
      assert (NQ : forall b, s <> b ++ "?") by (intros b E; apply chop_spec in E; congruence).
      assert (OI : negb r = true <-> r = false \/ (@None string = None /\ exists s, typed f (s ++ "?"))).
      { split; [intro H; left; destruct r; [discriminate|reflexivity]|]. intros [->|[_ [u Q]]]; [reflexivity|].
        exfalso. unfold typed in Q. apply (NQ u). congruence. }
      split.
      * intros [= <- <-]. split; [|exact OI]. apply f_simple; try assumption. intros ->. apply NA. exact T.
      * intros [H O]. rewrite (bool_iff _ _ _ O OI). inversion H; subst; unfold typed in *; try congruence.
  - cbn [bind type_map]. split; [discriminate|]. intros [H O]. inversion H; subst; unfold typed in *; congruence.
  - assert (OI : negb r = true <-> r = false \/ (@None string = None /\ exists s, typed f (s ++ "?"))).
    { unfold typed. rewrite T. split; [intro H; left; destruct r; [discriminate|reflexivity]|].
      intros [->|[_ [u Q]]]; [reflexivity|discriminate]. }
    split.
    + intros [= <- <-]. split; [|exact OI]. apply f_none; assumption.
    + intros [H O]. rewrite (bool_iff _ _ _ O OI). inversion H; subst; unfold typed in *; congruence.
Qed.

(** Two texts for one field are equal; without one it is a TypeError. *)
Theorem C90_error f r :
  (exists t, field_type f t /\ exists o, extract f r = Ret (t, o)) \/
  (extract f r = Raise TypeError /\ forall t, ~ field_type f t).
Proof.
  destruct (extract f r) as [[t o]|e] eqn:E.
  - left. exists t. apply C90_type in E. split; [tauto|]. exists o. reflexivity.
  - right. split.
    + assert (TM : forall t e, type_map t = Raise e -> e = TypeError).
      { intros [s|l] e' H; [rewrite type_map_one in H; discriminate|]. cbn in H. congruence. }
      assert (e = TypeError); [|congruence]. revert E. unfold extract.
      destruct (s_enum f); [discriminate|]. destruct (s_anyOf f) as [l|].
      * assert (AP : forall l e, anyof_parts l = Raise e -> e = TypeError).
        { clear - TM. induction l as [|o l IH]; intros e H; [discriminate|]. cbn [anyof_parts] in H.
          destruct (anyof_option o) as [x|e'] eqn:O; cbn [bind] in H.
          - destruct (anyof_parts l) as [ps|e']; cbn [bind] in H; [destruct x; discriminate|].
            injection H as <-. apply IH. reflexivity.
          - injection H as <-. revert O. unfold anyof_option.
            destruct (type_is "null" (s_type o)); [discriminate|]. destruct (s_type o) as [t|].
            + destruct (type_is "array" (Some t)); [destruct (s_items o) as [i|]; [destruct (s_type i) as [u|]|]|].
              * destruct (type_map u) eqn:U; cbn; [destruct (s_ref i); discriminate|]. intros [= <-]. eapply TM, U.
              * cbn. destruct (s_ref i); discriminate.
              * destruct (type_map t) eqn:U; cbn; [discriminate|]. intros [= <-]. eapply TM, U.
              * destruct (type_map t) eqn:U; cbn; [discriminate|]. intros [= <-]. eapply TM, U.
            + destruct (s_ref o); [discriminate|]. destruct (s_enum o); discriminate. }
        destruct (anyof_parts l) as [ps|e'] eqn:P; cbn [bind].
        -- destruct (existsb _ l); discriminate.
        -- intros [= <-]. eapply AP, P.
      * destruct (type_is "array" (s_type f)).
        -- destruct (s_items f) as [i|]; [|discriminate]. destruct (s_type i) as [u|].
           ++ destruct (type_map u) eqn:U; cbn; [discriminate|]. intros [= <-]. eapply TM, U.
           ++ destruct (s_ref i); [discriminate|]. destruct (s_enum i); discriminate.
        -- destruct (s_ref f); [discriminate|]. destruct (s_type f) as [[s|m]|]; [|cbn; congruence|discriminate].
           destruct (chop s); rewrite type_map_one; discriminate.
    + intros t H.
      assert (X : exists o, o = true <-> r = false \/ nullable f).
      { destruct r; [|exists true; tauto].
        assert (D : nullable f \/ ~ nullable f).
        { unfold nullable. destruct (s_enum f) as [l|].
          - destruct (existsb is_null l) eqn:Z; [left; apply existsb_null, Z|].
            right. intro I. apply existsb_null in I. congruence.
          - destruct (s_anyOf f) as [l|].
            + destruct (existsb (fun o => type_is "null" (s_type o)) l) eqn:Z; [left; apply existsb_null_type, Z|].
              right. intro I. apply existsb_null_type in I. congruence.
            + destruct (s_ref f); [right; intros [[=] _]|]. unfold typed.
              destruct (s_type f) as [[s|m]|]; [|right; intros [_ [u [=]]]|right; intros [_ [u [=]]]].
              destruct (chop s) as [b|] eqn:C.
              * left. split; [reflexivity|]. exists b. apply chop_spec in C. congruence.
              * right. intros [_ [u [= Q]]]. apply chop_spec in Q. congruence. }
        destruct D; [exists true|exists false]; intuition congruence. }
      destruct X as [o X]. rewrite (proj2 (C90_type f r t o)) in E; [discriminate|]. split; assumption.
Qed.

(** A default value, and the description. *)
Inductive default_is : option lit -> string -> Prop :=
| d_none : default_is None ""
| d_str s : default_is (Some (LStr s)) (" = " ++ quote ++ s ++ quote)
| d_null : default_is (Some LNull) " = null"
| d_true : default_is (Some (LBool true)) " = true"
| d_false : default_is (Some (LBool false)) " = false"
| d_other s : default_is (Some (LOther s)) (" = " ++ s).
Definition described (d : option string) (t : string) : Prop :=
  match d with None => t = "" | Some s => s = "" /\ t = "" \/ s <> "" /\ t = " - " ++ s end.

(** The line of a property. *)
Definition line_of (indent : nat) (required : list string) (p : string * spec) (line : string) : Prop :=
  exists pad mark t d s,
    line = pad ++ fst p ++ mark ++ ": " ++ t ++ d ++ s /\
    String.length pad = 2 * indent /\ (forall c k, String.get k pad = Some c -> c = " "%char) /\
    field_type (snd p) t /\ default_is (s_default (snd p)) d /\ described (s_description (snd p)) s /\
    (mark = "?" /\ (~ In (fst p) required \/ nullable (snd p)) \/
     mark = "" /\ In (fst p) required /\ ~ nullable (snd p)).
(** t is the lines of l. *)
Inductive lined : list string -> string -> Prop :=
| line_nil : lined [] ""
| line_one x : lined [x] x
| line_more x y l t : lined (y :: l) t -> lined (x :: y :: l) (x ++ newline ++ t).

Lemma pad_ok n : String.length (spaces2 n) = 2 * n /\ forall c k, String.get k (spaces2 n) = Some c -> c = " "%char.
Proof.
  induction n as [|n [L G]]; cbn; [split; [reflexivity|discriminate]|]. split; [rewrite L; lia|].
  intros c [|[|k]]; cbn; [congruence|congruence|apply G].
Qed.
Lemma pad_unique n pad : String.length pad = 2 * n -> (forall c k, String.get k pad = Some c -> c = " "%char) -> pad = spaces2 n.
Proof.
  revert pad. induction n as [|n IH]; intros pad L G.
  - destruct pad; [reflexivity|discriminate].
  - destruct pad as [|a [|b pad]]; cbn in L; [lia|lia|].
    rewrite (G a 0 eq_refl), (G b 1 eq_refl). cbn. rewrite (IH pad); [reflexivity|lia|].
    intros c k H. apply (G c (S (S k))). exact H.
Qed.
Lemma lined_join l t : lined l t <-> join_lines l = t.
Proof.
  split.
  - induction 1 as [|x|x y l t B IH]; [reflexivity|reflexivity|].
    change (join_lines (x :: y :: l)) with (x ++ newline ++ join_lines (y :: l)). rewrite IH. reflexivity.
  - intros <-. induction l as [|x l IH]; [constructor|]. destruct l as [|y l]; [constructor|].
    change (join_lines (x :: y :: l)) with (x ++ newline ++ join_lines (y :: l)). constructor. exact IH.
Qed.
Lemma default_spec d t : default_is d t <-> default_text d = t.
Proof. split; [intros []; reflexivity|intros <-; destruct d as [[| |[]|]|]; constructor]. Qed.

Lemma existsb_name n req : existsb (String.eqb n) req = true <-> In n req.
Proof.
  rewrite existsb_exists. split; [intros (x & I & E); apply String.eqb_eq in E; congruence|].
  intro I. exists n. split; [exact I|apply String.eqb_refl].
Qed.

Lemma field_line_spec indent req n f line :
  field_line (spaces2 indent) req n f = Ret line <-> line_of indent req (n, f) line.
Proof.
  unfold field_line, line_of. cbn [fst snd]. destruct (pad_ok indent) as [PL PG]. split.
  - intro H. destruct (extract f _) as [[t o]|] eqn:E; [|discriminate]. cbn [bind] in H. injection H as <-.
    apply C90_type in E. destruct E as [FT O].
    exists (spaces2 indent), (if o then "?" else ""), t, (default_text (s_default f)).
    eexists. split; [reflexivity|]. split; [exact PL|]. split; [exact PG|]. split; [exact FT|].
    split; [apply default_spec; reflexivity|]. split.
    + unfold described. destruct (s_description f) as [[|c s]|]; [left; split; reflexivity|right; split; [discriminate|reflexivity]|reflexivity].
    + assert (N : existsb (String.eqb n) req = false <-> ~ In n req).
      { rewrite <- existsb_name. destruct (existsb _ _); split; congruence. }
      rewrite N in O. destruct o.
      * left. split; [reflexivity|]. apply O. reflexivity.
      * right. split; [reflexivity|].
        assert (X : ~ (~ In n req \/ nullable f)) by (rewrite <- O; discriminate).
        split; [|tauto]. destruct (existsb (String.eqb n) req) eqn:Z; [apply existsb_name, Z|].
        exfalso. apply X. left. apply N. reflexivity.
  - intros (pad & mark & t & d & s & -> & L & G & FT & D & DS & M).
    rewrite (pad_unique indent pad L G). apply default_spec in D.
    assert (O : exists o : bool, (o = true <-> existsb (String.eqb n) req = false \/ nullable f) /\ mark = (if o then "?" else "")).
    { assert (N : existsb (String.eqb n) req = false <-> ~ In n req).
      { rewrite <- existsb_name. destruct (existsb _ _); split; congruence. }
      destruct M as [[-> M]|[-> [I NN]]]; [exists true|exists false]; (split; [|reflexivity]); rewrite N; intuition congruence. }
    destruct O as (o & O & ->). rewrite (proj2 (C90_type f _ t o)) by (split; assumption). cbn [bind].
    rewrite D. do 6 f_equal. unfold described in DS.
    destruct (s_description f) as [[|c u]|].
    + destruct DS as [[_ ->]|[X _]]; [reflexivity|congruence].
    + destruct DS as [[[=] _]|[_ ->]]. reflexivity.
    + congruence.
Qed.

(** The text has one line per property, in order, each with the name, the mark, the
    type, the default and the description of its property; it is a TypeError exactly if
    a property has no such type. *)
Theorem C90_lines props req indent :
  (forall t, typescript_schema (Some props) req indent = Ret t <->
     exists ls, Forall2 (line_of indent req) props ls /\ lined ls t) /\
  ((exists e, typescript_schema (Some props) req indent = Raise e) <->
     exists n f, In (n, f) props /\ forall t, ~ field_type f t) /\
  (forall e, typescript_schema (Some props) req indent = Raise e -> e = TypeError) /\
  typescript_schema None req indent = Ret "".
Proof.
  unfold typescript_schema.
  assert (FL : forall ls, field_lines (spaces2 indent) req props = Ret ls <-> Forall2 (line_of indent req) props ls).
  { induction props as [|[n f] l IH]; intro ls; cbn [field_lines].
    - split; [intros [= <-]; constructor|intro F; inversion F; reflexivity].
    - split.
      + intro H. destruct (field_line (spaces2 indent) req n f) as [x|] eqn:E; [|discriminate]. cbn [bind] in H.
        destruct (field_lines (spaces2 indent) req l) as [xs|]; [|discriminate]. injection H as <-.
        constructor; [apply field_line_spec, E|apply IH; reflexivity].
      + intro F. inversion F as [|? x ? xs A B]; subst. apply field_line_spec in A. rewrite A. cbn [bind].
        rewrite (proj2 (IH xs) B). reflexivity. }
  assert (FE : forall e, field_lines (spaces2 indent) req props = Raise e -> e = TypeError /\ exists n f, In (n, f) props /\ forall t, ~ field_type f t).
  { clear FL. induction props as [|[n f] l IH]; intros e H; [discriminate|]. cbn [field_lines] in H. unfold field_line in H.
    destruct (C90_error f (existsb (String.eqb n) req)) as [(t & _ & o & E)|[E NF]]; rewrite E in H; cbn [bind] in H.
    - destruct (field_lines (spaces2 indent) req l) as [xs|e'] eqn:X; [discriminate|]. injection H as <-.
      destruct (IH e' eq_refl) as [-> (n' & f' & I & Q)]. split; [reflexivity|]. exists n', f'. split; [right; exact I|exact Q].
    - injection H as <-. split; [reflexivity|]. exists n, f. split; [left; reflexivity|exact NF]. }
  split; [|split; [|split]].
  - intro t. split.
    + intro H. destruct (field_lines (spaces2 indent) req props) as [ls|]; [|discriminate]. injection H as <-.
      exists ls. split; [apply FL; reflexivity|apply lined_join; reflexivity].
    + intros (ls & F & L). apply FL in F. rewrite F. cbn [bind]. apply lined_join in L. congruence.
  - split.
    + intros [e H]. destruct (field_lines (spaces2 indent) req props) as [ls|e'] eqn:E; [discriminate|].
      apply (FE e' eq_refl).
    + intros (n & f & I & NF). destruct (field_lines (spaces2 indent) req props) as [ls|e'] eqn:E; [|exists e'; reflexivity].
      exfalso. pose proof (proj1 (FL ls) eq_refl) as F. clear - F I NF. induction F as [|p x l ls A F IH]; [destruct I|].
      destruct I as [->|I]; [|apply IH, I]. destruct A as (? & ? & t & ? & ? & _ & _ & _ & FT & _). apply (NF t FT).
  - intros e H. destruct (field_lines (spaces2 indent) req props) as [ls|e'] eqn:E; [discriminate|].
    injection H as <-. apply (FE e' eq_refl).
  - reflexivity.
Qed.

(** A bare field. *)
Definition bare : spec := Spec None None None None None None None.
Definition of_type (s : string) : spec := Spec None None (Some (One s)) None None None None.
Definition array_of (i : spec) : spec := Spec None None (Some (One "array")) (Some i) None None None.
Definition ref_to (s : string) : spec := Spec None None None None (Some s) None None.
Definition any_of (l : list spec) : spec := Spec None (Some l) None None None None None.
Definition enum_of (l : list lit) : spec := Spec (Some l) None None None None None None.

(** Claims refuted: a type that may be null is accepted (a list of types is a
    TypeError); booleans are written alike in enums and defaults; nested arrays and enums
    in array alternatives keep their item types; every property is one line. *)
Theorem C90_type_list_refuted :
  typescript_schema (Some [("x", Spec None None (Some (Many ["string"; "null"])) None None None None)]) [] 0 = Raise TypeError.
Proof. reflexivity. Qed.
Theorem C90_bool_refuted :
  typescript_schema (Some [("x", Spec (Some [LBool true]) None None None None (Some (LBool true)) None)]) ["x"] 0
  = Ret "x: True = true".
Proof. reflexivity. Qed.
Theorem C90_items_refuted :
  typescript_schema (Some [("x", array_of (array_of (of_type "integer")));
                           ("y", any_of [array_of (enum_of [LStr "a"])])]) ["x"; "y"] 0
  = Ret ("x: array[]" ++ newline ++ "y: any[]").
Proof. reflexivity. Qed.
Theorem C90_description_refuted :
  typescript_schema (Some [("x", Spec None None (Some (One "string")) None None None (Some ("a" ++ newline ++ "y: int")))]) ["x"] 0
  = typescript_schema (Some [("x", Spec None None (Some (One "string")) None None None (Some "a")); ("y", of_type "integer")]) ["x"; "y"] 0.
Proof. reflexivity. Qed.

Example C90_ex :
  typescript_schema
    (Some [("name", Spec None None (Some (One "string")) None None (Some (LStr "bob")) (Some "the name"));
           ("age", any_of [of_type "integer"; of_type "null"; ref_to "#/$defs/Age"; array_of (ref_to "#/$defs/A")]);
           ("tags", array_of (enum_of [LStr "a"; LNull; LOther "3"]));
           ("who", ref_to "#/$defs/User"); ("n", of_type "number?"); ("e", enum_of [LStr "x"; LNull]); ("z", any_of [bare])])
    ["age"; "tags"; "who"; "n"; "e"; "z"] 1
  = Ret ("  name?: string = " ++ quote ++ "bob" ++ quote ++ " - the name" ++ newline ++
         "  age?: int | Age | A[] | null" ++ newline ++
         "  tags: (" ++ quote ++ "a" ++ quote ++ " | null | 3)[]" ++ newline ++
         "  who: User" ++ newline ++ "  n?: float" ++ newline ++ "  e?: " ++ quote ++ "x" ++ quote ++ " | null" ++ newline ++
         "  z: any").
Proof. vm_compute. reflexivity. Qed.

Print Assumptions C90_type.
Print Assumptions C90_error.
Print Assumptions C90_lines.
Print Assumptions C90_type_list_refuted.
Print Assumptions C90_bool_refuted.
Print Assumptions C90_items_refuted.
Print Assumptions C90_description_refuted.
