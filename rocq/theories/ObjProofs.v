(* The buffered reader and the same reader on plain text. *)
From Verif Require Import Common DecimalModel MeshModel ObjModel.
Local Open Scope N_scope.

Arguments mk_parser {F T}. Arguments p_src {F T}. Arguments p_craft {F T}. Arguments p_groups {F T}.
Arguments p_vertices {F T}. Arguments p_textures {F T}. Arguments p_normals {F T}.

(* ---- the reader on plain text: running out of text is the endless loop ---- *)

Definition t_peek (t : list N) : N := match t with [] => guard | c :: _ => c end.

Fixpoint t_blank (t : list N) : res (list N) :=
  match t with
  | [] => OutOfFuel
  | c :: t' => if (c =? ch_space) || (c =? ch_tab) then t_blank t' else Ok t
  end.

Fixpoint t_chars (t : list N) (acc : list N) : res (list N * list N) :=
  match t with
  | [] => OutOfFuel
  | c :: t' =>
    if (c =? ch_space) || (c =? ch_nl) || (c =? ch_cr) then Ok (t, acc)
    else t_chars t' (if (length acc <? token_size - 1)%nat then c :: acc else acc)
  end.

Definition t_token (t : list N) (m : mem) : res (list N * mem) :=
  let! t := t_blank t in
  let! (t, acc) := t_chars t [] in
  Ok (t, store (rev acc) m).

Fixpoint t_line (t : list N) : res (list N) :=
  match t with
  | [] => OutOfFuel
  | c :: t' => if c =? ch_nl then Ok t' else t_line t'
  end.

Definition plain : input (list N) := mk_input (list N) t_peek t_token t_line.

(* ---- relation between outcomes ---- *)

(* with [lax] the left one may still be running *)
Definition rres {A B} (lax : Prop) (P : A -> B -> Prop) (r1 : res A) (r2 : res B) : Prop :=
  match r1, r2 with
  | Ok a, Ok b => P a b
  | UB, UB => True
  | OutOfFuel, OutOfFuel => True
  | OutOfFuel, _ => lax
  | _, _ => False
  end.

Lemma rres_bind : forall A1 A2 B1 B2 lax (P : A1 -> A2 -> Prop) (Q : B1 -> B2 -> Prop) r1 r2 k1 k2,
  rres lax P r1 r2 -> (forall a b, P a b -> rres lax Q (k1 a) (k2 b)) -> rres lax Q (bind r1 k1) (bind r2 k2).
Proof.
  intros A1 A2 B1 B2 lax P Q r1 r2 k1 k2 H K. destruct r1, r2; cbn in *; auto; try contradiction.
  destruct (k2 a); auto.
Qed.

Lemma rres_refl : forall A lax (P : A -> A -> Prop) (r : res A), (forall a, P a a) -> rres lax P r r.
Proof. intros A lax P [a | |] H; cbn; auto. Qed.

Lemma rres_eq : forall A (r1 r2 : res A), rres False eq r1 r2 -> r1 = r2.
Proof. intros A [a | |] [b | |] H; cbn in H; congruence || contradiction. Qed.

Lemma rres_lax : forall A (r1 r2 : res A), rres True eq r1 r2 -> r1 <> OutOfFuel -> r1 = r2.
Proof. intros A [a | |] [b | |] H N; cbn in H; congruence || contradiction. Qed.

Lemma rres_out : forall A B (P : A -> B -> Prop) r1 r2, rres True P r1 r2 -> r2 = OutOfFuel -> r1 = OutOfFuel.
Proof. intros A B P [a | |] r2 H ->; cbn in H; reflexivity || contradiction. Qed.

(* ---- the two inputs ---- *)

Definition text_of (s : src) : list N := s_cur s ++ s_rest s.
Definition clean (t : list N) : Prop := Forall (fun c => c <> guard) t.

(* the state between two uses: the buffer is not exhausted before the file is *)
Definition live (s : src) : Prop := s_cur s = [] -> s_rest s = [].

Lemma feed_text : forall bs s, s_cur s = [] -> text_of (feed bs s) = text_of s.
Proof. intros bs s H. unfold text_of, feed. cbn [s_cur s_rest]. rewrite H. cbn. apply firstn_skipn. Qed.

Lemma feed_live : forall bs s, (1 <= bs)%nat -> live (feed bs s).
Proof.
  intros bs [c r] H. unfold live, feed. cbn [s_cur s_rest]. destruct bs as [| bs]; [lia |]. destruct r; cbn; congruence.
Qed.

Lemma peek_cases : forall s, clean (text_of s) ->
  (s_cur s = [] /\ peek s = guard) \/
  (exists c l, s_cur s = c :: l /\ peek s = c /\ c <> guard /\ text_of s = c :: text_of (advance s)).
Proof.
  intros [[| c l] r] H; unfold peek, text_of, advance in *; cbn [s_cur s_rest tl app] in *; [left; auto | right].
  exists c, l. inversion_clear H. auto.
Qed.

(* the number of iterations the loops can take *)
Definition measure (s : src) : nat := (length (s_cur s) + 2 * length (s_rest s))%nat.

Lemma measure_bound : forall s, (measure s <= 2 * length (text_of s))%nat.
Proof. intros s. unfold measure, text_of. rewrite app_length. lia. Qed.

Lemma measure_feed : forall bs s, (1 <= bs)%nat -> s_cur s = [] -> s_rest s <> [] -> (measure (feed bs s) < measure s)%nat.
Proof.
  intros bs [c r] H E N. unfold measure, feed. cbn [s_cur s_rest] in *. subst c. rewrite firstn_length, skipn_length.
  destruct r; [congruence |]. cbn [length]. lia.
Qed.

Lemma measure_advance : forall s, s_cur s <> [] -> (measure (advance s) < measure s)%nat.
Proof. intros [c r] H. unfold measure, advance. cbn [s_cur s_rest] in *. destruct c; [congruence |]. cbn. lia. Qed.

Section Buffered.
  Variable bs : nat.
  Hypothesis Hbs : (1 <= bs)%nat.

  Lemma skip_spaces_sim : forall fuel s, clean (text_of s) ->
    rres (fuel <= measure s)%nat (fun s' t' => text_of s' = t' /\ s_cur s' <> [])
      (skip_spaces bs fuel s) (t_blank (text_of s)).
  Proof using Hbs.
    induction fuel as [| fuel IH]; intros s C.
    - cbn [skip_spaces]. destruct (t_blank (text_of s)); cbn; auto; lia.
    - cbn [skip_spaces]. destruct (peek_cases s C) as [[E P] | (c & l & E & P & G & T)].
      + rewrite P. change (guard =? guard) with true. cbn match.
        destruct (s_rest s) as [| x r] eqn:ER.
        * (* end of file: it never stops *)
          replace (text_of s) with (@nil N) by (unfold text_of; now rewrite E, ER). cbn [t_blank].
          replace (skip_spaces bs fuel (feed bs s)) with (@OutOfFuel src); [exact I |]. symmetry.
          assert (Em : forall f s, s_cur s = [] -> s_rest s = [] -> skip_spaces bs f s = OutOfFuel).
          { clear. induction f as [| f IH]; intros [c r] H1 H2; cbn [s_cur s_rest] in *; subst; [reflexivity |].
            cbn [skip_spaces]. unfold peek. cbn [s_cur]. change (guard =? guard) with true. cbn match.
            apply IH; unfold feed; cbn [s_cur s_rest]; destruct bs; reflexivity. }
          apply Em; unfold feed; cbn [s_cur s_rest]; rewrite ER; destruct bs; reflexivity.
        * specialize (IH (feed bs s)). rewrite feed_text in IH by exact E. specialize (IH C).
          pose proof (measure_feed bs s Hbs E ltac:(congruence)) as M. revert IH. unfold rres.
          destruct (skip_spaces bs fuel (feed bs s)), (t_blank (text_of s)); intros; auto; lia.
      + rewrite P. replace (c =? guard) with false by (symmetry; now apply N.eqb_neq). rewrite T. cbn [t_blank].
        destruct ((c =? ch_space) || (c =? ch_tab)) eqn:K.
        * specialize (IH (advance s)). pose proof (measure_advance s ltac:(congruence)) as M.
          assert (C' : clean (text_of (advance s))) by (rewrite T in C; now inversion_clear C).
          specialize (IH C'). revert IH. unfold rres.
          destruct (skip_spaces bs fuel (advance s)), (t_blank (text_of (advance s))); intros; auto; lia.
        * cbn. split; [exact T | congruence].
  Qed.

  Lemma read_chars_sim : forall fuel s acc, clean (text_of s) ->
    rres (fuel <= measure s)%nat (fun a b => text_of (fst a) = fst b /\ s_cur (fst a) <> [] /\ snd a = snd b)
      (read_chars bs fuel s acc) (t_chars (text_of s) acc).
  Proof using Hbs.
    induction fuel as [| fuel IH]; intros s acc C.
    - cbn [read_chars]. destruct (t_chars (text_of s) acc); cbn; auto; lia.
    - cbn [read_chars]. destruct (peek_cases s C) as [[E P] | (c & l & E & P & G & T)].
      + rewrite P. change ((guard =? ch_space) || (guard =? ch_nl) || (guard =? ch_cr)) with false.
        change (guard =? guard) with true. cbn match.
        destruct (s_rest s) as [| x r] eqn:ER.
        * replace (text_of s) with (@nil N) by (unfold text_of; now rewrite E, ER). cbn [t_chars].
          replace (read_chars bs fuel (feed bs s) acc) with (@OutOfFuel (src * list N)); [exact I |]. symmetry.
          assert (Em : forall f s acc, s_cur s = [] -> s_rest s = [] -> read_chars bs f s acc = OutOfFuel).
          { clear. induction f as [| f IH]; intros [c r] acc H1 H2; cbn [s_cur s_rest] in *; subst; [reflexivity |].
            cbn [read_chars]. unfold peek. cbn [s_cur].
            change ((guard =? ch_space) || (guard =? ch_nl) || (guard =? ch_cr)) with false.
            change (guard =? guard) with true. cbn match.
            apply IH; unfold feed; cbn [s_cur s_rest]; destruct bs; reflexivity. }
          apply Em; unfold feed; cbn [s_cur s_rest]; rewrite ER; destruct bs; reflexivity.
        * specialize (IH (feed bs s) acc). rewrite feed_text in IH by exact E. specialize (IH C).
          pose proof (measure_feed bs s Hbs E ltac:(congruence)) as M. revert IH. unfold rres.
          destruct (read_chars bs fuel (feed bs s) acc), (t_chars (text_of s) acc); intros; auto; lia.
      + rewrite P, T. cbn [t_chars]. destruct ((c =? ch_space) || (c =? ch_nl) || (c =? ch_cr)) eqn:K.
        * cbn. split; [exact T |]. split; [congruence | reflexivity].
        * replace (c =? guard) with false by (symmetry; now apply N.eqb_neq).
          set (acc' := if (length acc <? token_size - 1)%nat then c :: acc else acc).
          specialize (IH (advance s) acc'). pose proof (measure_advance s ltac:(congruence)) as M.
          assert (C' : clean (text_of (advance s))) by (rewrite T in C; now inversion_clear C).
          specialize (IH C'). revert IH. unfold rres.
          destruct (read_chars bs fuel (advance s) acc'), (t_chars (text_of (advance s)) acc'); intros; auto; lia.
  Qed.

  Lemma skip_line_sim : forall fuel s, clean (text_of s) ->
    rres (fuel <= measure s)%nat (fun s' t' => text_of s' = ch_nl :: t' /\ s_cur s' <> [])
      (skip_line_loop bs fuel s) (t_line (text_of s)).
  Proof using Hbs.
    induction fuel as [| fuel IH]; intros s C.
    - cbn [skip_line_loop]. destruct (t_line (text_of s)); cbn; auto; lia.
    - cbn [skip_line_loop]. destruct (peek_cases s C) as [[E P] | (c & l & E & P & G & T)].
      + rewrite P. change (guard =? ch_nl) with false. change (guard =? guard) with true. cbn match.
        destruct (s_rest s) as [| x r] eqn:ER.
        * replace (text_of s) with (@nil N) by (unfold text_of; now rewrite E, ER). cbn [t_line].
          replace (skip_line_loop bs fuel (feed bs s)) with (@OutOfFuel src); [exact I |]. symmetry.
          assert (Em : forall f s, s_cur s = [] -> s_rest s = [] -> skip_line_loop bs f s = OutOfFuel).
          { clear. induction f as [| f IH]; intros [c r] H1 H2; cbn [s_cur s_rest] in *; subst; [reflexivity |].
            cbn [skip_line_loop]. unfold peek. cbn [s_cur]. change (guard =? ch_nl) with false.
            change (guard =? guard) with true. cbn match.
            apply IH; unfold feed; cbn [s_cur s_rest]; destruct bs; reflexivity. }
          apply Em; unfold feed; cbn [s_cur s_rest]; rewrite ER; destruct bs; reflexivity.
        * specialize (IH (feed bs s)). rewrite feed_text in IH by exact E. specialize (IH C).
          pose proof (measure_feed bs s Hbs E ltac:(congruence)) as M. revert IH. unfold rres.
          destruct (skip_line_loop bs fuel (feed bs s)), (t_line (text_of s)); intros; auto; lia.
      + rewrite P, T. cbn [t_line]. destruct (c =? ch_nl) eqn:K.
        * apply N.eqb_eq in K. split; [rewrite T, K; reflexivity | congruence].
        * replace (c =? guard) with false by (symmetry; now apply N.eqb_neq).
          specialize (IH (advance s)). pose proof (measure_advance s ltac:(congruence)) as M.
          assert (C' : clean (text_of (advance s))) by (rewrite T in C; now inversion_clear C).
          specialize (IH C'). revert IH. unfold rres.
          destruct (skip_line_loop bs fuel (advance s)), (t_line (text_of (advance s))); intros; auto; lia.
  Qed.
End Buffered.

(* the text shrinks *)
Lemma t_blank_suffix : forall t t', t_blank t = Ok t' -> exists b, t = b ++ t' /\ t' <> [] /\ Forall (fun c => c = 32 \/ c = 9) b.
Proof.
  induction t as [| c t IH]; intros t' H; cbn [t_blank] in H; [discriminate |].
  destruct ((c =? ch_space) || (c =? ch_tab)) eqn:K.
  - destruct (IH _ H) as (b & -> & N & Fb). exists (c :: b). split; [reflexivity |]. split; [exact N |].
    constructor; [| exact Fb]. unfold ch_space, ch_tab in K. lia.
  - injection H as <-. exists []. split; [reflexivity |]. split; [discriminate | constructor].
Qed.

Lemma t_chars_suffix : forall t acc t' acc', t_chars t acc = Ok (t', acc') -> exists b, t = b ++ t' /\ t' <> [] /\ ~ In 10 b.
Proof.
  induction t as [| c t IH]; intros acc t' acc' H; cbn [t_chars] in H; [discriminate |].
  destruct ((c =? ch_space) || (c =? ch_nl) || (c =? ch_cr)) eqn:K.
  - injection H as <- <-. exists []. split; [reflexivity |]. split; [discriminate | intros []].
  - destruct (IH _ _ _ H) as (b & -> & N & Fb). exists (c :: b). split; [reflexivity |]. split; [exact N |].
    intros [E | E]; [| contradiction]. subst c. unfold ch_nl in K. lia.
Qed.

Lemma t_token_suffix : forall t m t' m', t_token t m = Ok (t', m') -> exists b, t = b ++ t' /\ t' <> [] /\ ~ In 10 b.
Proof.
  intros t m t' m' H. unfold t_token in H. destruct (t_blank t) as [t1 | |] eqn:E1; cbn [bind] in H; try discriminate.
  destruct (t_chars t1 []) as [[t2 acc] | |] eqn:E2; cbn [bind] in H; try discriminate. injection H as <- <-.
  destruct (t_blank_suffix _ _ E1) as (b1 & -> & N1 & F1). destruct (t_chars_suffix _ _ _ _ E2) as (b2 & -> & N2 & F2).
  exists (b1 ++ b2). split; [now rewrite app_assoc |]. split; [exact N2 |]. rewrite in_app_iff. intros [H | H]; [| contradiction].
  rewrite Forall_forall in F1. apply F1 in H. lia.
Qed.

Lemma t_line_suffix : forall t t', t_line t = Ok t' -> exists b, t = b ++ 10 :: t' /\ ~ In 10 b.
Proof.
  induction t as [| c t IH]; intros t' H; cbn [t_line] in H; [discriminate |].
  destruct (N.eqb_spec c ch_nl) as [E | E].
  - injection H as <-. exists []. unfold ch_nl in E. subst c. split; [reflexivity | intros []].
  - destruct (IH _ H) as (b & -> & Fb). exists (c :: b). split; [reflexivity |].
    intros [K | K]; [unfold ch_nl in E; congruence | contradiction].
Qed.

Lemma clean_suffix : forall a b, clean (a ++ b) -> clean b.
Proof. intros a b H. apply Forall_app in H. tauto. Qed.

(* ---- inputs that do the same ---- *)

Record agree {T1 T2} (lax : Prop) (R : T1 -> T2 -> Prop) (I1 : input T1) (I2 : input T2) : Prop := {
  ag_peek : forall s t, R s t -> in_peek I1 s = in_peek I2 t;
  ag_token : forall s t m, R s t ->
    rres lax (fun a b => R (fst a) (fst b) /\ snd a = snd b) (in_token I1 s m) (in_token I2 t m);
  ag_line : forall s t, R s t -> rres lax R (in_line I1 s) (in_line I2 t) }.

Lemma rres_weaken : forall A B (lax lax' : Prop) (P P' : A -> B -> Prop) r1 r2, rres lax P r1 r2 ->
  (lax -> lax') -> (forall a b, r1 = Ok a -> r2 = Ok b -> P a b -> P' a b) -> rres lax' P' r1 r2.
Proof. intros A B lax lax' P P' r1 r2 H L K. destruct r1, r2; cbn in *; auto. Qed.

(* the buffered file with enough fuel, or with any fuel *)
Definition same_text (lax : Prop) (fuel : nat) (s : src) (t : list N) : Prop :=
  text_of s = t /\ clean t /\ live s /\ (~ lax -> (2 * length t < fuel)%nat).

Lemma buffered_plain : forall (lax : Prop) bs fuel, (1 <= bs)%nat -> lax \/ ~ lax ->
  agree lax (same_text lax fuel) (buffered bs fuel) plain.
Proof.
  intros lax bs fuel Hbs D. split.
  - intros s t (E & C & Lv & _). cbn [in_peek buffered plain]. destruct s as [cur rest]. unfold text_of, live, peek in *.
    cbn [s_cur s_rest] in *. subst t. destruct cur as [| c cur]; [rewrite Lv by reflexivity |]; reflexivity.
  - intros s t m (E & C & Lv & Hf). subst t. cbn [in_token buffered plain]. unfold get_next_token, t_token.
    assert (LX : (fuel <= measure s)%nat -> lax).
    { intros H. destruct D as [D | D]; [exact D |]. specialize (Hf D). pose proof (measure_bound s). lia. }
    eapply rres_bind.
    { eapply rres_weaken; [apply skip_spaces_sim; assumption | exact LX |].
      intros s1 t1 _ E2 K. exact (conj K E2). }
    intros s1 t1 [[E1 N1] T1]. subst t1. destruct (t_blank_suffix _ _ T1) as (b & Eb & _ & _).
    assert (C1 : clean (text_of s1)) by (rewrite Eb in C; now apply clean_suffix in C).
    assert (L1 : (length (text_of s1) <= length (text_of s))%nat) by (rewrite Eb, app_length; lia).
    eapply rres_bind.
    { eapply rres_weaken; [apply read_chars_sim; eassumption | |].
      - intros H. destruct D as [D | D]; [exact D |]. specialize (Hf D). pose proof (measure_bound s1). lia.
      - intros a b' _ E2 K. exact (conj K E2). }
    intros [s2 acc] [t2 acc'] [(E2 & N2 & A2) T2]. cbn [fst snd] in *. subst t2 acc'. cbn.
    destruct (t_chars_suffix _ _ _ _ T2) as (b2 & Eb2 & _ & _). split; [| reflexivity].
    split; [reflexivity |]. split; [rewrite Eb2 in C1; now apply clean_suffix in C1 |].
    split; [intros Hc; congruence |]. intros ND. specialize (Hf ND). rewrite Eb2, app_length in L1. lia.
  - intros s t (E & C & Lv & Hf). subst t. cbn [in_line buffered plain]. unfold skip_line.
    assert (LX : (fuel <= measure s)%nat -> lax).
    { intros H. destruct D as [D | D]; [exact D |]. specialize (Hf D). pose proof (measure_bound s). lia. }
    pose proof (skip_line_sim bs Hbs fuel s C) as K. destruct (t_line (text_of s)) as [t' | |] eqn:Et.
    + destruct (skip_line_loop bs fuel s) as [s1 | |]; cbn in K; try contradiction; [| cbn; auto].
      destruct K as [K1 K2]. cbn. destruct (t_line_suffix _ _ Et) as (b & Eb & _).
      assert (T' : text_of (advance s1) = t').
      { destruct s1 as [[| c cur] r]; cbn [s_cur] in K2; [congruence |]. unfold text_of, advance in *.
        cbn [s_cur s_rest tl app] in *. congruence. }
      assert (C' : clean t').
      { rewrite Eb in C. apply clean_suffix in C. now inversion_clear C. }
      assert (Lt : (length t' <= length (text_of s))%nat) by (rewrite Eb, app_length; cbn; lia).
      destruct (N.eqb_spec (peek (advance s1)) guard) as [P | P].
      * assert (Z : s_cur (advance s1) = []).
        { rewrite <- T' in C'. destruct (peek_cases _ C') as [[Z _] | (c & l & _ & P' & G & _)]; [exact Z | congruence]. }
        split; [now rewrite feed_text |]. split; [exact C' |]. split; [now apply feed_live |]. intros ND. specialize (Hf ND). lia.
      * split; [exact T' |]. split; [exact C' |]. split; [| intros ND; specialize (Hf ND); lia].
        intros Z. exfalso. apply P. unfold peek. now rewrite Z.
    + destruct (skip_line_loop bs fuel s); cbn in K |- *; auto.
    + destruct (skip_line_loop bs fuel s); cbn in K |- *; auto.
Qed.

Lemma plain_plain : agree True eq plain plain.
Proof.
  split.
  - intros s t ->. reflexivity.
  - intros s t m ->. apply rres_refl. auto.
  - intros s t ->. apply rres_refl. auto.
Qed.

Section Sim.
  Context {F B : Type} (strtof : list N -> F) (f0 f1 : F)
    (face_normal : F * F * F -> F * F * F -> F * F * F -> F * F * F)
    (mtl_get : list N -> option B) (mtl_default : B).
  Context {T1 T2 : Type} (lax : Prop) (R : T1 -> T2 -> Prop) (I1 : input T1) (I2 : input T2).
  Hypothesis A : agree lax R I1 I2.

  Definition peq (p : parser T1) (q : parser T2) : Prop :=
    R (p_src p) (p_src q) /\ p_craft p = p_craft q /\ p_groups p = p_groups q /\
    p_vertices (F := F) p = p_vertices q /\ p_textures p = p_textures q /\ p_normals p = p_normals q.

  (* the left fuel is not greater, and smaller only if [lax] *)
  Definition fuels (n1 n2 : nat) : Prop := (n1 <= n2)%nat /\ ((n1 < n2)%nat -> lax).

  Lemma read_face_sim : forall n1 n2 vs ts ns s t m acc a b, fuels n1 n2 -> R s t ->
    rres lax (fun x y => R (fst (fst x)) (fst (fst y)) /\ snd (fst x) = snd (fst y) /\ snd x = snd y)
      (read_face (F := F) f0 I1 n1 vs ts ns s m acc a b) (read_face f0 I2 n2 vs ts ns t m acc a b).
  Proof using A.
    induction n1 as [| n1 IH]; intros n2 vs ts ns s t m acc a b Hf HR.
    - cbn [read_face]. destruct n2 as [| n2]; [exact I |]. unfold rres.
      destruct (read_face f0 I2 (S n2) vs ts ns t m acc a b); auto; apply Hf; lia.
    - destruct n2 as [| n2]; [destruct Hf; lia |]. cbn [read_face]. rewrite (ag_peek _ _ _ _ A _ _ HR).
      destruct (in_peek I2 t =? ch_space); [| cbn; auto].
      eapply rres_bind; [apply (ag_token _ _ _ _ A); exact HR |]. intros [s1 m1] [t1 m2] [HR1 Em]. cbn [fst snd] in *. subst m2.
      eapply rres_bind; [apply rres_refl with (P := eq); reflexivity |]. intros fv ? <-. destruct fv; cbn; auto.
      apply IH; auto. destruct Hf. split; [lia |]. intros. apply H0. lia.
  Qed.

  Lemma token_float_sim : forall s t m, R s t ->
    rres lax (fun x y => R (fst (fst x)) (fst (fst y)) /\ snd (fst x) = snd (fst y) /\ snd x = snd y)
      (token_float strtof I1 s m) (token_float strtof I2 t m).
  Proof using A.
    intros s t m H. unfold token_float. eapply rres_bind; [apply (ag_token _ _ _ _ A); exact H |].
    intros [s1 m1] [t1 m2] [HR1 Em]. cbn [fst snd] in *. subst m2.
    eapply rres_bind; [apply rres_refl with (P := eq); reflexivity |]. intros l ? <-. cbn. auto.
  Qed.

  Lemma token_float3_sim : forall s t m, R s t ->
    rres lax (fun x y => R (fst (fst x)) (fst (fst y)) /\ snd (fst x) = snd (fst y) /\ snd x = snd y)
      (token_float3 strtof I1 s m) (token_float3 strtof I2 t m).
  Proof using A.
    intros s t m H. unfold token_float3.
    eapply rres_bind; [apply token_float_sim; exact H |]. intros [[s1 m1] x] [[t1 m1'] x'] (H1 & M1 & X1). cbn [fst snd] in *. subst.
    eapply rres_bind; [apply token_float_sim; exact H1 |]. intros [[s2 m2] y] [[t2 m2'] y'] (H2 & M2 & X2). cbn [fst snd] in *. subst.
    eapply rres_bind; [apply token_float_sim; exact H2 |]. intros [[s3 m3] z] [[t3 m3'] z'] (H3 & M3 & X3). cbn [fst snd] in *. subst.
    cbn. auto.
  Qed.

  Definition aeq (a : @action F B T1) (b : @action F B T2) : Prop :=
    match a, b with
    | Go p m l, Go q m' l' => peq p q /\ m = m' /\ l = l'
    | Leave p o, Leave q o' => peq p q /\ o = o'
    | _, _ => False
    end.

  Lemma leave_sim : forall p q l ret, peq p q -> rres lax aeq (leave p l ret) (leave q l ret).
  Proof using A.
    intros p q l ret H. unfold leave. eapply rres_bind; [apply rres_refl with (P := eq); reflexivity |].
    intros o ? <-. cbn. auto.
  Qed.

  Lemma switch_sim : forall n1 n2 p q m l, fuels n1 n2 -> peq p q ->
    rres lax aeq (switch strtof f0 f1 face_normal mtl_get I1 n1 p m l) (switch strtof f0 f1 face_normal mtl_get I2 n2 q m l).
  Proof using A.
    intros n1 n2 p q m l Hf H. unfold switch.
    eapply rres_bind; [apply rres_refl with (P := eq); reflexivity |]. intros c ? <-.
    destruct H as (Hs & Hc & Hg & Hv & Ht & Hn).
    destruct (c =? 118); [| destruct (c =? 117); [| destruct (c =? 111); [| destruct (c =? 103); [| destruct (c =? 102)]]]].
    - unfold case_v. eapply rres_bind; [apply rres_refl with (P := eq); reflexivity |]. intros d ? <-.
      destruct (d =? 116).
      + eapply rres_bind; [apply token_float_sim; exact Hs |]. intros [[s1 m1] x] [[t1 m1'] x'] (H1 & M1 & X1). cbn [fst snd] in *. subst.
        eapply rres_bind; [apply token_float_sim; exact H1 |]. intros [[s2 m2] y] [[t2 m2'] y'] (H2 & M2 & X2). cbn [fst snd] in *. subst.
        cbn. unfold peq. cbn. rewrite Hc, Hg, Hv, Ht, Hn. auto 10.
      + eapply rres_bind; [apply token_float3_sim; exact Hs |]. intros [[s1 m1] x] [[t1 m1'] x'] (H1 & M1 & X1). cbn [fst snd] in *. subst.
        destruct (d =? 110); cbn; unfold peq; cbn; rewrite Hc, Hg, Hv, Ht, Hn; auto 10.
    - unfold case_u. eapply rres_bind; [apply rres_refl with (P := eq); reflexivity |]. intros w ? <-.
      destruct (str_eqb w word_usemtl); [| cbn; unfold peq; auto 10].
      eapply rres_bind; [apply (ag_token _ _ _ _ A); exact Hs |]. intros [s1 m1] [t1 m2] [HR1 Em]. cbn [fst snd] in *. subst m2.
      eapply rres_bind; [apply rres_refl with (P := eq); reflexivity |]. intros name ? <-. cbn. unfold peq, with_src. cbn. auto 10.
    - unfold case_o. destruct (negb (is_nil (l_name l))).
      + apply leave_sim. unfold peq. cbn. auto 10.
      + eapply rres_bind; [apply (ag_token _ _ _ _ A); exact Hs |]. intros [s1 m1] [t1 m2] [HR1 Em]. cbn [fst snd] in *. subst m2.
        eapply rres_bind; [apply rres_refl with (P := eq); reflexivity |]. intros name ? <-. cbn. unfold peq, with_src. cbn. auto 10.
    - unfold case_g. rewrite Hg. destruct (negb (is_nil (l_name l)) && p_groups q).
      + apply leave_sim. unfold peq. cbn. auto 10.
      + destruct (is_nil (l_name l) || p_groups q); [| cbn; unfold peq; auto 10].
        eapply rres_bind; [apply (ag_token _ _ _ _ A); exact Hs |]. intros [s1 m1] [t1 m2] [HR1 Em]. cbn [fst snd] in *. subst m2.
        eapply rres_bind; [apply rres_refl with (P := eq); reflexivity |]. intros name ? <-. cbn. unfold peq. cbn. auto 10.
    - unfold case_f. rewrite Hv, Ht, Hn. eapply rres_bind; [apply read_face_sim; eauto |].
      intros [[s1 m1] fl] [[t1 m1'] fl'] (H1 & M1 & X1). cbn [fst snd] in *. subst.
      assert (P1 : peq (with_src p s1) (with_src q t1)) by (unfold peq, with_src; cbn; auto 10).
      destruct fl' as [vs a b | |]; [| now apply leave_sim | cbn; auto].
      eapply rres_bind; [apply rres_refl with (P := eq); reflexivity |]. intros vs' ? <-.
      destruct (triangulate f0 f1 a vs') as [ts |]; [| now apply leave_sim].
      eapply rres_bind; [apply rres_refl with (P := eq); reflexivity |]. intros mm ? <-. cbn. auto.
    - cbn. unfold peq. auto 10.
  Qed.

  Lemma lines_sim : forall n1 n2 p q m l, fuels n1 n2 -> peq p q ->
    rres lax (fun x y => peq (fst x) (fst y) /\ snd x = snd y)
      (lines strtof f0 f1 face_normal mtl_get I1 n1 p m l) (lines strtof f0 f1 face_normal mtl_get I2 n2 q m l).
  Proof using A.
    induction n1 as [| n1 IH]; intros n2 p q m l Hf H.
    - cbn [lines]. destruct n2 as [| n2]; [exact I |]. unfold rres.
      destruct (lines strtof f0 f1 face_normal mtl_get I2 (S n2) q m l); auto; apply Hf; lia.
    - destruct n2 as [| n2]; [destruct Hf; lia |]. cbn [lines]. pose proof H as HP. destruct H as (Hs & Hc & Hg & Hv & Ht & Hn).
      rewrite (ag_peek _ _ _ _ A _ _ Hs). destruct (in_peek I2 (p_src q) =? guard).
      { eapply rres_bind; [apply rres_refl with (P := eq); reflexivity |]. intros o ? <-. cbn. auto. }
      eapply rres_bind with (P := fun x y => peq (fst x) (fst y) /\ snd x = snd y).
      { unfold keyword. rewrite Hc. destruct (negb (p_craft q =? 0)).
        - cbn. unfold peq. cbn. auto 10.
        - eapply rres_bind; [apply (ag_token _ _ _ _ A); exact Hs |]. intros [s1 m1] [t1 m2] [HR1 Em]. cbn [fst snd] in *.
          cbn. unfold peq, with_src. cbn. auto 10. }
      intros [p1 m1] [q1 m2] [P1 Em]. cbn [fst snd] in *. subst m2.
      eapply rres_bind; [apply switch_sim; eassumption |]. intros a b Hab.
      destruct a as [p2 m2 l2 | p2 o], b as [q2 m2' l2' | q2 o']; cbn [aeq] in Hab; try contradiction.
      + destruct Hab as (P2 & <- & <-). pose proof P2 as (Hs2 & R2).
        eapply rres_bind; [apply (ag_line _ _ _ _ A); exact Hs2 |]. intros s3 t3 H3. apply IH.
        * destruct Hf. split; [lia |]. intros. apply H0. lia.
        * unfold peq, with_src in *. cbn. tauto.
      + destruct Hab as (P2 & <-). cbn. auto.
  Qed.

  Lemma load_sim : forall c1 c2 n1 n2 p q, fuels c1 c2 -> fuels n1 n2 -> peq p q ->
    rres lax eq (load strtof f0 f1 face_normal mtl_get mtl_default I1 c1 n1 p)
                (load strtof f0 f1 face_normal mtl_get mtl_default I2 c2 n2 q).
  Proof using A.
    induction c1 as [| c1 IH]; intros c2 n1 n2 p q Hc Hf H.
    - cbn [load]. destruct c2 as [| c2]; [exact I |]. unfold rres.
      destruct (load strtof f0 f1 face_normal mtl_get mtl_default I2 (S c2) n2 q); auto; apply Hc; lia.
    - destruct c2 as [| c2]; [destruct Hc; lia |]. cbn [load]. unfold get_next_mesh.
      eapply rres_bind; [apply lines_sim; eassumption |]. intros [p1 o] [q1 o'] [P1 Eo]. cbn [fst snd] in *. subst o'.
      destruct o as [r |]; [| cbn; auto]. destruct (r_ret r); [| cbn; auto].
      eapply rres_bind; [apply rres_refl with (P := eq); reflexivity |]. intros r' ? <-.
      eapply rres_bind; [apply IH; eauto |].
      + destruct Hc. split; [lia |]. intros. apply H1. lia.
      + intros rest ? <-. cbn. reflexivity.
  Qed.
End Sim.
