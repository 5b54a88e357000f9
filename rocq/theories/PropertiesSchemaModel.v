(** C107: classes generated from JSON schemas. *)
From Coq Require Import String.
From Coq Require Import List Arith Bool Lia.
From Verif Require Import ModelLexer ModelSchemaModel.
Import ListNotations.

(** *** Specification *)

(** ASCII letters, digits and the underscore, written out. *)
Definition letters : text :=
  codes "ABCDEFGHIJKLMNOPQRSTUVWXYZabcdefghijklmnopqrstuvwxyz".
Definition name_chars : text := letters ++ codes "0123456789_".

(** [kept s t]: [t] is [s] without the characters that may not occur in a
    name. *)
Inductive kept : text -> text -> Prop :=
| kept_nil : kept [] []
| kept_yes c s t : In c name_chars -> kept s t -> kept (c :: s) (c :: t)
| kept_no c s t : ~ In c name_chars -> kept s t -> kept (c :: s) t.

Definition starts_with_letter (t : text) : Prop :=
  exists c r, t = c :: r /\ In c letters.

(** The name a title or its absence stands for. *)
Definition names (title : option tval) (default name : text) : Prop :=
  (exists s, title = Some (TStr s) /\ kept s name /\ starts_with_letter name)
  \/ (name = default /\
      forall s t, title = Some (TStr s) -> kept s t -> ~ starts_with_letter t).

(** [readable w sch json title]: the schema can be used; its text and title. *)
Inductive readable (w : world) : schema -> text -> option tval -> Prop :=
| rd_dict title json : readable w (SDict title (DText json)) json title
| rd_str s title : w_parse w s = Some (PDict title) -> readable w (SStr s) s title
| rd_empty : w_parse w [] = None -> readable w (SStr []) [] None.

(** The error for a schema that cannot be used. *)
Inductive unreadable (w : world) : schema -> lexn -> Prop :=
| ur_dict title : unreadable w (SDict title DTypeErr) LValue
| ur_dict_other title : unreadable w (SDict title DOtherErr) LOther
| ur_text s : s <> [] -> w_parse w s = None -> unreadable w (SStr s) LValue
| ur_no_dict s : w_parse w s = Some PNoDict -> unreadable w (SStr s) LAttribute
| ur_any : unreadable w SAny LType.

(** The attribute that is looked at: the one with the name, or else Model. *)
Definition found (m : text -> option attr) (name : text) (a : attr) : Prop :=
  m name = Some a \/ (m name = None /\ m (codes "Model") = Some a).

(** *** Names *)

Lemma in_letters c : In c letters <-> (65 <= c <= 90 \/ 97 <= c <= 122).
Proof.
  split.
  - intros H. assert (forallb (fun c => ((65 <=? c) && (c <=? 90)) || ((97 <=? c) && (c <=? 122)))
                        letters = true) as F by reflexivity.
    rewrite forallb_forall in F. specialize (F c H).
    apply orb_true_iff in F.
    destruct F as [F|F]; apply andb_true_iff in F; destruct F as [F1 F2];
      apply Nat.leb_le in F1; apply Nat.leb_le in F2; lia.
  - intros H.
    assert (forallb (fun c => existsb (Nat.eqb c) letters) (seq 65 26 ++ seq 97 26) = true)
      as F by reflexivity.
    rewrite forallb_forall in F.
    assert (In c (seq 65 26 ++ seq 97 26)) as Hc
      by (apply in_or_app; rewrite !in_seq; lia).
    specialize (F c Hc). apply existsb_exists in F. destruct F as (x & Hx & E).
    apply Nat.eqb_eq in E. subst. exact Hx.
Qed.

Lemma in_name_chars c : In c name_chars <->
  (65 <= c <= 90 \/ 97 <= c <= 122 \/ 48 <= c <= 57 \/ c = 95).
Proof.
  unfold name_chars. rewrite in_app_iff, in_letters.
  assert (In c (codes "0123456789_") <-> (48 <= c <= 57 \/ c = 95)) as ->.
  { cbn. split; [lia|]. intros H.
    assert (c = 48 \/ c = 49 \/ c = 50 \/ c = 51 \/ c = 52 \/ c = 53 \/ c = 54
            \/ c = 55 \/ c = 56 \/ c = 57 \/ c = 95) by lia. intuition. }
  tauto.
Qed.

Lemma leb_b a b : (a <=? b) = true <-> a <= b.
Proof. apply Nat.leb_le. Qed.

Lemma s_letter_iff c : s_upper c || s_lower c = true <-> In c letters.
Proof.
  rewrite in_letters. unfold s_upper, s_lower.
  rewrite orb_true_iff, !andb_true_iff, !leb_b. tauto.
Qed.

Lemma s_valid_iff c : s_valid c = true <-> In c name_chars.
Proof.
  rewrite in_name_chars. unfold s_valid, s_upper, s_lower, s_digit.
  rewrite !orb_true_iff, !andb_true_iff, !leb_b, Nat.eqb_eq. tauto.
Qed.

Lemma kept_fun s t t' : kept s t -> kept s t' -> t = t'.
Proof.
  intros H. revert t'. induction H; intros t' H'; inversion H'; subst; try tauto.
  f_equal. auto. auto.
Qed.

Lemma kept_filter s : kept s (filter s_valid (filter (fun c => negb (c =? 32)) s)).
Proof.
  induction s as [|c s IH]; cbn; [constructor|].
  destruct (c =? 32) eqn:E; cbn.
  - apply Nat.eqb_eq in E. subst. apply kept_no; [|exact IH].
    rewrite in_name_chars. lia.
  - destruct (s_valid c) eqn:V.
    + apply kept_yes; [apply s_valid_iff; exact V|exact IH].
    + apply kept_no; [|exact IH]. rewrite <- s_valid_iff. congruence.
Qed.

Lemma sanitize_iff s n : sanitize s = LOk n <-> kept s n /\ starts_with_letter n.
Proof.
  unfold sanitize. pose proof (kept_filter s) as K.
  destruct (filter s_valid _) as [|c t].
  - split; [discriminate|]. intros (H & c & r & E & _).
    pose proof (kept_fun _ _ _ K H). congruence.
  - destruct (s_upper c || s_lower c) eqn:L.
    + split.
      * intros H. injection H as <-. split; [exact K|].
        exists c, t. split; [reflexivity|]. now apply s_letter_iff.
      * intros (H & _). f_equal. eapply kept_fun; eauto.
    + split; [discriminate|]. intros (H & c' & r & E & I).
      pose proof (kept_fun _ _ _ K H) as E2. rewrite E in E2. injection E2 as -> ->.
      apply s_letter_iff in I. congruence.
Qed.

Lemma sanitize_err s : (exists n, sanitize s = LOk n) \/ sanitize s = LErr LValue.
Proof.
  unfold sanitize. destruct (filter s_valid _) as [|c t]; [now right|].
  destruct (_ || _); [left; eauto|now right].
Qed.

(** The function that cleans a title: it answers with the title's name
    characters if they start with a letter and raises ValueError otherwise. *)
Theorem C107_sanitize s :
  (forall n, sanitize s = LOk n <-> kept s n /\ starts_with_letter n)
  /\ (forall e, sanitize s = LErr e <->
        e = LValue /\ forall t, kept s t -> ~ starts_with_letter t).
Proof.
  split; [intros n; apply sanitize_iff|]. intros e. split.
  - intros H. destruct (sanitize_err s) as [[n Hn]|E]; [congruence|].
    rewrite E in H. injection H as <-. split; [reflexivity|].
    intros t K S. assert (sanitize s = LOk t) by (apply sanitize_iff; auto). congruence.
  - intros (-> & H). destruct (sanitize_err s) as [[n Hn]|E]; [|exact E].
    apply sanitize_iff in Hn. destruct Hn as [K S]. destruct (H n K S).
Qed.
Print Assumptions C107_sanitize.

(** Cleaning a cleaned name changes nothing. *)
Theorem C107_sanitize_twice s n : sanitize s = LOk n -> sanitize n = LOk n.
Proof.
  rewrite !sanitize_iff. intros (K & S). split; [|exact S].
  clear S. induction K; [constructor|constructor; assumption|assumption].
Qed.
Print Assumptions C107_sanitize_twice.

Lemma names_fun title d n n' : names title d n -> names title d n' -> n = n'.
Proof.
  intros [(s & E & K & S)|(-> & H)] [(s' & E' & K' & S')|(-> & H')].
  - rewrite E in E'. injection E' as <-. eapply kept_fun; eauto.
  - destruct (H' s n E K S).
  - destruct (H s' n' E' K' S').
  - reflexivity.
Qed.

Lemma pick_names title d : names title d (pick_name title d).
Proof.
  unfold names, pick_name. destruct title as [[s|]|].
  - destruct s as [|c s].
    + right. split; [reflexivity|]. intros s t E K. injection E as <-.
      inversion K; subst. intros (c & r & X & _). discriminate.
    + destruct (sanitize (c :: s)) as [n|e] eqn:E.
      * apply sanitize_iff in E. left. exists (c :: s). tauto.
      * right. split; [reflexivity|]. intros s' t E' K S. injection E' as <-.
        assert (sanitize (c :: s) = LOk t) by (apply sanitize_iff; auto). congruence.
  - right. split; [reflexivity|]. intros s t E. discriminate.
  - right. split; [reflexivity|]. intros s t E. discriminate.
Qed.

(** *** Preparing *)

Lemma prepare_iff w sch d json name :
  prepare w sch d = LOk (json, name) <->
  exists title, readable w sch json title /\ names title d name.
Proof.
  split.
  - unfold prepare, str_to_dict. destruct sch as [title [s| |]|s|]; try discriminate.
    + intros E. injection E as <- <-. exists title. split; [constructor|apply pick_names].
    + destruct (w_parse w s) as [[title|]|] eqn:P; try discriminate.
      * intros E. injection E as <- <-. exists title.
        split; [now constructor|apply pick_names].
      * destruct s; [|discriminate]. intros E. injection E as <- <-.
        exists None. split; [now constructor|apply pick_names].
  - intros (title & R & N). pose proof (names_fun _ _ _ _ N (pick_names title d)) as ->.
    unfold prepare, str_to_dict. destruct R as [title json|s title P|P].
    + reflexivity.
    + now rewrite P.
    + now rewrite P.
Qed.

Lemma prepare_err w sch d e : prepare w sch d = LErr e <-> unreadable w sch e.
Proof.
  split.
  - unfold prepare, str_to_dict. destruct sch as [title [s| |]|s|]; try discriminate.
    + intros E. injection E as <-. constructor.
    + intros E. injection E as <-. constructor.
    + destruct (w_parse w s) as [[title|]|] eqn:P; try discriminate.
      * intros E. injection E as <-. now constructor.
      * destruct s; [discriminate|]. intros E. injection E as <-.
        constructor; [discriminate|exact P].
    + intros E. injection E as <-. constructor.
  - intros U. unfold prepare, str_to_dict.
    destruct U as [| |s N P|s P|]; try reflexivity; rewrite P; [|reflexivity].
    destruct s; [congruence|reflexivity].
Qed.

(** A schema is used or refused, and refused with ValueError if it is a dict
    or string that cannot be serialised or parsed, with TypeError if it is
    neither dict nor string; nothing is generated then. *)
Theorem C107_refused w sch d e :
  w_installed w = true -> unreadable w sch e -> load w sch d = (LErr e, None).
Proof.
  intros I U. unfold load. rewrite I. cbn.
  now rewrite (proj2 (prepare_err w sch d e) U).
Qed.
Print Assumptions C107_refused.

Theorem C107_not_installed w sch d :
  w_installed w = false -> load w sch d = (LErr LImport, None).
Proof. intros I. unfold load. now rewrite I. Qed.
Print Assumptions C107_not_installed.

(** *** The class returned *)

Lemma extract_ok m name a :
  extract_class m name = LOk a <-> found m name a /\ is_model a = true.
Proof.
  unfold extract_class, found. split.
  - destruct (m name) as [b|]; [|destruct (m (codes "Model")) as [b|]; [|discriminate]];
      destruct (is_model b) eqn:M; try discriminate; intros E; injection E as <-; auto.
  - intros ([->|[-> ->]] & M); now rewrite M.
Qed.

Lemma load_ran w sch d r file :
  load w sch d = (r, Some file) ->
  exists json title name,
    w_installed w = true /\ readable w sch json title /\ names title d name
    /\ file = join (w_tmp w) (file_name w json name)
    /\ r = match w_gen w json file with
         | GRaises => LErr LRuntime
         | GNoFile => LErr LFileNotFound
         | GWrites =>
             if negb (w_spec w file) then LErr LImport
             else match w_exec w file with
               | None => LErr LRuntime
               | Some m =>
                   match extract_class m name with
                   | LErr e => LErr e
                   | LOk c => if w_rebuild w c then LOk c else LErr LRuntime
                   end
               end
         end.
Proof.
  unfold load. destruct (w_installed w); [|discriminate]. cbn.
  destruct (prepare w sch d) as [[json name]|e] eqn:P; [|discriminate].
  intros E. injection E as <- <-. apply prepare_iff in P. destruct P as (title & R & N).
  exists json, title, name. repeat split; auto.
Qed.

Lemma load_runs w sch d json title name :
  w_installed w = true -> readable w sch json title -> names title d name ->
  load w sch d =
    let file := join (w_tmp w) (file_name w json name) in
    (match w_gen w json file with
         | GRaises => LErr LRuntime
         | GNoFile => LErr LFileNotFound
         | GWrites =>
             if negb (w_spec w file) then LErr LImport
             else match w_exec w file with
               | None => LErr LRuntime
               | Some m =>
                   match extract_class m name with
                   | LErr e => LErr e
                   | LOk c => if w_rebuild w c then LOk c else LErr LRuntime
                   end
               end
         end, Some file).
Proof.
  intros I R N. unfold load. rewrite I. cbn.
  now rewrite (proj2 (prepare_iff w sch d json name) (ex_intro _ title (conj R N))).
Qed.

(** When a call succeeds and with which class: the generator ran on the
    schema's text and wrote a file that could be imported; the class is the
    module's attribute with the schema's name, or else its attribute Model;
    it is a pydantic model class; and it could be rebuilt. *)
Theorem C107_success w sch d c :
  (exists f, load w sch d = (LOk c, f)) <->
  exists json title name m file,
    w_installed w = true /\ readable w sch json title /\ names title d name
    /\ file = join (w_tmp w) (file_name w json name)
    /\ w_gen w json file = GWrites /\ w_spec w file = true
    /\ w_exec w file = Some m /\ found m name c /\ is_model c = true
    /\ w_rebuild w c = true.
Proof.
  split.
  - intros (f & H). destruct f as [file|].
    + apply load_ran in H. destruct H as (json & title & name & I & R & N & F & E).
      exists json, title, name.
      destruct (w_gen w json file) eqn:G; try discriminate.
      destruct (w_spec w file) eqn:S; try discriminate. cbn in E.
      destruct (w_exec w file) as [m|] eqn:X; try discriminate.
      destruct (extract_class m name) as [a|] eqn:C; try discriminate.
      destruct (w_rebuild w a) eqn:B; try discriminate. injection E as <-.
      apply extract_ok in C. destruct C as [Fo M].
      exists m, file. tauto.
    + exfalso. unfold load in H. destruct (w_installed w); [|discriminate]. cbn in H.
      destruct (prepare w sch d) as [[json name]|e]; [|discriminate]. discriminate.
  - intros (json & title & name & m & file & I & R & N & F & G & S & X & Fo & M & B).
    rewrite (load_runs w sch d json title name I R N). cbv zeta. rewrite <- F.
    rewrite G, S, X. cbn.
    rewrite (proj2 (extract_ok m name c) (conj Fo M)), B. eauto.
Qed.
Print Assumptions C107_success.

(** Which exception is raised once the schema could be used. *)
Theorem C107_errors w sch d json title name file e :
  w_installed w = true -> readable w sch json title -> names title d name ->
  file = join (w_tmp w) (file_name w json name) ->
  (load w sch d = (LErr e, Some file) <->
   match e with
   | LRuntime =>
       w_gen w json file = GRaises
       \/ (w_gen w json file = GWrites /\ w_spec w file = true /\
           (w_exec w file = None
            \/ exists m c, w_exec w file = Some m /\ found m name c
                           /\ is_model c = true /\ w_rebuild w c = false))
   | LFileNotFound => w_gen w json file = GNoFile
   | LImport => w_gen w json file = GWrites /\ w_spec w file = false
   | LType =>
       w_gen w json file = GWrites /\ w_spec w file = true /\
       exists m c, w_exec w file = Some m /\ found m name c /\ is_model c = false
   | LAttribute =>
       w_gen w json file = GWrites /\ w_spec w file = true /\
       exists m, w_exec w file = Some m /\ m name = None /\ m (codes "Model") = None
   | LValue | LOther => False
   end).
Proof.
  intros I R N F. rewrite (load_runs w sch d json title name I R N). cbv zeta.
  rewrite <- F.
  assert (forall r : lres attr, (r, Some file) = (LErr e, Some file) <-> r = LErr e) as ->
    by (intros r; split; [intros X; now injection X as ->|now intros ->]).
  destruct (w_gen w json file) eqn:G.
  - split; [intros E; injection E as <-; now left|].
    destruct e; intros H; try reflexivity; try tauto; try discriminate; exfalso;
      destruct H as [H _]; discriminate.
  - split; [intros E; now injection E as <-|].
    destruct e; intros H; try reflexivity; try tauto; try discriminate; exfalso;
      try (destruct H as [H _]; discriminate).
    destruct H as [H|[H _]]; discriminate.
  - destruct (w_spec w file) eqn:S; cbn [negb].
    2:{ split; [intros E; injection E as <-; auto|].
        destruct e; intros H; try reflexivity; try tauto; try discriminate; exfalso;
          try (destruct H as (_ & H & _); discriminate).
        destruct H as [H|(_ & H & _)]; discriminate. }
    destruct (w_exec w file) as [m|] eqn:X.
    2:{ split; [intros E; injection E as <-; auto|].
        destruct e; intros H; try reflexivity; try tauto; try discriminate; exfalso.
        - destruct H as (_ & H); discriminate.
        - destruct H as (_ & _ & m & c & H & _); discriminate.
        - destruct H as (_ & _ & m & H & _); discriminate. }
    assert (forall a b, found m name a -> found m name b -> a = b) as FF.
    { unfold found. intros a b [A|[A A']] [B|[B B']]; congruence. }
    destruct (extract_class m name) as [c|x] eqn:C.
    + apply extract_ok in C. destruct C as [Fo M].
      destruct (w_rebuild w c) eqn:B.
      * split; [discriminate|]. intros H. exfalso. destruct e; try tauto; try discriminate.
        -- destruct H as (_ & H); discriminate.
        -- destruct H as (_ & _ & m' & c' & H & Fo' & M'). injection H as <-.
           rewrite (FF _ _ Fo' Fo) in M'. congruence.
        -- destruct H as (_ & _ & m' & H & A & A'). injection H as <-.
           unfold found in Fo. destruct Fo as [Z|[_ Z]]; [rewrite A in Z|rewrite A' in Z]; discriminate.
        -- destruct H as [H|(_ & _ & [H|(m' & c' & H & Fo' & M' & B')])]; try discriminate.
           injection H as <-. rewrite (FF _ _ Fo' Fo) in B'. congruence.
      * split.
        -- intros E. injection E as <-. right. repeat split; auto. right.
           exists m, c. auto.
        -- intros H. destruct e; try reflexivity; exfalso; try tauto; try discriminate.
           ++ destruct H as (_ & H); discriminate.
           ++ destruct H as (_ & _ & m' & c' & H & Fo' & M'). injection H as <-.
              rewrite (FF _ _ Fo' Fo) in M'. congruence.
           ++ destruct H as (_ & _ & m' & H & A & A'). injection H as <-.
              unfold found in Fo. destruct Fo as [Z|[_ Z]]; [rewrite A in Z|rewrite A' in Z]; discriminate.
    + unfold extract_class in C.
      destruct (m name) as [a|] eqn:A.
      * destruct (is_model a) eqn:M; [discriminate|]. injection C as <-.
        split.
        -- intros E. injection E as <-. repeat split; auto. exists m, a.
           unfold found. auto.
        -- intros H. destruct e; try reflexivity; exfalso; try tauto; try discriminate.
           ++ destruct H as (_ & H); discriminate.
           ++ destruct H as (_ & _ & m' & H & A1 & _). injection H as <-. congruence.
           ++ destruct H as [H|(_ & _ & [H|(m' & c' & H & Fo' & M' & B')])]; try discriminate.
              injection H as <-. destruct Fo' as [Z|[Z _]]; congruence.
      * destruct (m (codes "Model")) as [a|] eqn:A2.
        -- destruct (is_model a) eqn:M; [discriminate|]. injection C as <-.
           split.
           ++ intros E. injection E as <-. repeat split; auto. exists m, a.
              unfold found. auto.
           ++ intros H. destruct e; try reflexivity; exfalso; try tauto; try discriminate.
              ** destruct H as (_ & H); discriminate.
              ** destruct H as (_ & _ & m' & H & _ & A3). injection H as <-. congruence.
              ** destruct H as [H|(_ & _ & [H|(m' & c' & H & Fo' & M' & B')])]; try discriminate.
                 injection H as <-. destruct Fo' as [Z|[_ Z]]; congruence.
        -- injection C as <-. split.
           ++ intros E. injection E as <-. repeat split; auto. exists m. auto.
           ++ intros H. destruct e; try reflexivity; exfalso; try tauto; try discriminate.
              ** destruct H as (_ & H); discriminate.
              ** destruct H as (_ & _ & m' & c' & H & Fo' & M'). injection H as <-.
                 destruct Fo' as [Z|[_ Z]]; congruence.
              ** destruct H as [H|(_ & _ & [H|(m' & c' & H & Fo' & M' & B')])]; try discriminate.
                 injection H as <-. destruct Fo' as [Z|[_ Z]]; congruence.
Qed.
Print Assumptions C107_errors.

(** *** The file written *)

Lemma kept_chars s t : kept s t -> forall c, In c t -> In c name_chars.
Proof.
  induction 1; intros x Hx; [destruct Hx| |auto].
  destruct Hx as [<-|Hx]; auto.
Qed.

Lemma lower_no_slash w n :
  (forall c, In c n -> c <> 47) ->
  (forall c, In c n -> 128 <= c -> ~ In 47 (w_low w c)) ->
  ~ In 47 (lower w n).
Proof.
  intros H L I. unfold lower in I. apply in_flat_map in I. destruct I as (c & Hc & I).
  unfold lower1, s_upper in I.
  destruct ((65 <=? c) && (c <=? 90)) eqn:U.
  - apply andb_true_iff in U. rewrite !leb_b in U. destruct I as [I|[]]. lia.
  - destruct (c <? 128) eqn:B.
    + destruct I as [I|[]]. apply (H c Hc). exact I.
    + apply Nat.ltb_ge in B. exact (L c Hc B I).
Qed.

Lemma join_no_slash d n : n <> [] -> ~ In 47 n -> join d n = d ++ 47 :: n.
Proof.
  destruct n as [|c n]; [congruence|]. intros _ H. unfold join.
  destruct (c =? 47) eqn:E; [|reflexivity].
  apply Nat.eqb_eq in E. destruct H. now left.
Qed.

Lemma file_name_slash w json name :
  ~ In 47 (lower w name) -> ~ In 47 (w_hash w json) -> ~ In 47 (file_name w json name).
Proof.
  intros H1 H2 I. unfold file_name in I. rewrite !in_app_iff in I.
  destruct I as [I|[I|[I|I]]]; try tauto.
  - cbn in I. lia.
  - cbn in I. lia.
Qed.

Lemma file_name_ne w json name : file_name w json name <> [].
Proof. unfold file_name. intros E. destruct (lower w name); discriminate. Qed.

(** A name taken from the title gives a file directly inside the temporary
    directory; so does a model_name without slashes. *)
Theorem C107_file w sch d r file :
  (forall s, ~ In 47 (w_hash w s)) ->
  (forall c, 128 <= c -> ~ In 47 (w_low w c)) ->
  load w sch d = (r, Some file) ->
  (~ In 47 d \/ exists json title s t, readable w sch json title /\
                 title = Some (TStr s) /\ kept s t /\ starts_with_letter t) ->
  exists base, file = w_tmp w ++ 47 :: base /\ ~ In 47 base.
Proof.
  intros HH HL E C. apply load_ran in E.
  destruct E as (json & title & name & I & R & N & -> & _).
  assert (~ In 47 name) as S.
  { destruct N as [(s & _ & K & _)|(-> & N)].
    - intros X. apply (kept_chars _ _ K), in_name_chars in X. lia.
    - destruct C as [C|(json' & title' & s & t & R' & E' & K & L)]; [exact C|].
      assert (title' = title) as ->.
      { inversion R; subst; inversion R'; subst; try congruence. }
      exfalso. exact (N s t E' K L). }
  assert (~ In 47 (file_name w json name)) as F.
  { apply file_name_slash; [|apply HH]. apply lower_no_slash.
    - intros c Hc ->. exact (S Hc).
    - intros c _. apply HL. }
  exists (file_name w json name). split; [|exact F].
  apply join_no_slash; [apply file_name_ne|exact F].
Qed.
Print Assumptions C107_file.

(** *** Examples and refutations *)

Definition ex_mod (n : text) : option attr :=
  if list_eq_dec Nat.eq_dec n (codes "User") then Some (AModel 1)
  else if list_eq_dec Nat.eq_dec n (codes "Model") then Some (AModel 2)
  else if list_eq_dec Nat.eq_dec n (codes "BaseModel") then Some ABaseModel
  else if list_eq_dec Nat.eq_dec n (codes "Field") then Some (ANotModel 3)
  else None.

Definition ex_world : world :=
  World true
    (fun s => if list_eq_dec Nat.eq_dec s (codes "[1]") then Some PNoDict
              else if list_eq_dec Nat.eq_dec s (codes "{}") then Some (PDict None)
              else None)
    (fun _ => codes "-42") (fun c => [c]) (codes "/tmp/t")
    (fun _ _ => GWrites) (fun _ => true) (fun _ => Some ex_mod) (fun _ => true).

Definition titled (s : string) : schema :=
  SDict (Some (TStr (codes s))) (DText (codes "{...}")).

Example C107_ex_title :
  load ex_world (titled "U s-e!r") (codes "Dyn")
  = (LOk (AModel 1), Some (codes "/tmp/t/user_model_-42.py")).
Proof. reflexivity. Qed.

Example C107_ex_fallback :
  load ex_world (titled "9 lives") (codes "Dyn")
  = (LOk (AModel 2), Some (codes "/tmp/t/dyn_model_-42.py")).
Proof. reflexivity. Qed.

Example C107_ex_errors :
  fst (load ex_world (SStr (codes "{")) (codes "Dyn")) = LErr LValue
  /\ fst (load ex_world (SStr []) (codes "User")) = LOk (AModel 1)
  /\ fst (load ex_world SAny (codes "Dyn")) = LErr LType
  /\ fst (load ex_world (SDict None DTypeErr) (codes "Dyn")) = LErr LValue.
Proof. repeat split. Qed.

Example C107_ex_sanitize :
  sanitize (codes "My Model (v2)") = LOk (codes "MyModelv2")
  /\ sanitize (codes "_x") = LErr LValue /\ sanitize (codes "!?") = LErr LValue.
Proof. repeat split. Qed.

(** The class returned can be pydantic's own BaseModel instead of a generated
    class: a schema titled BaseModel. *)
Theorem C107_generated_refuted :
  ~ (forall w sch d c f, load w sch d = (LOk c, f) -> c <> ABaseModel).
Proof.
  intros H.
  apply (H ex_world (titled "BaseModel") (codes "Dyn") ABaseModel
           (Some (codes "/tmp/t/basemodel_model_-42.py"))); reflexivity.
Qed.
Print Assumptions C107_generated_refuted.

(** A module with a class Model can still be refused: the title names
    something the generated module imports, such as Field. *)
Theorem C107_model_fallback_refuted :
  ~ (forall w sch d file m c,
       w_exec w file = Some m -> m (codes "Model") = Some c -> is_model c = true ->
       load w sch d <> (LErr LType, Some file)).
Proof.
  intros H.
  apply (H ex_world (titled "Field") (codes "Dyn")
           (codes "/tmp/t/field_model_-42.py") ex_mod (AModel 2)); reflexivity.
Qed.
Print Assumptions C107_model_fallback_refuted.

(** A schema string that is valid JSON but no object does not raise
    ValueError. *)
Theorem C107_value_error_refuted :
  ~ (forall w s d, w_installed w = true ->
       (forall title, w_parse w s <> Some (PDict title)) -> s <> [] ->
       load w (SStr s) d = (LErr LValue, None)).
Proof.
  intros H. specialize (H ex_world (codes "[1]") (codes "Dyn") eq_refl).
  assert (load ex_world (SStr (codes "[1]")) (codes "Dyn") = (LErr LAttribute, None)) as E
    by reflexivity.
  rewrite E in H. discriminate H; [intros t; cbn; discriminate|discriminate].
Qed.
Print Assumptions C107_value_error_refuted.

(** A cleaned name need not be a legal class name: a keyword passes. *)
Theorem C107_identifier_refuted :
  ~ (forall s n, sanitize s = LOk n -> n <> codes "class").
Proof. intros H. now apply (H (codes "class") (codes "class")). Qed.
Print Assumptions C107_identifier_refuted.

(** model_name is not cleaned: an absolute one has the generated code written
    outside the temporary directory. *)
Theorem C107_inside_refuted :
  ~ (forall w sch d r file, load w sch d = (r, Some file) ->
       exists base, file = w_tmp w ++ 47 :: base).
Proof.
  intros H.
  destruct (H ex_world (SStr (codes "{}")) (codes "/home/me/x") _ _ eq_refl) as (b & E).
  cbn in E. discriminate.
Qed.
Print Assumptions C107_inside_refuted.
