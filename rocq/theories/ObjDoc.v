(* The meaning of a document is what the reader makes of its text. *)
From Verif Require Import Common ByteLemmas DecimalModel MeshModel MeshProps ObjModel ObjSpec ObjProofs ObjCompact ObjTerm.
Local Open Scope N_scope.

(* ---- tokens ---- *)

Definition is_end (c : N) : Prop := c = 32 \/ c = 10 \/ c = 13.

Lemma t_chars_word : forall w acc e rest, Forall word_char w -> is_end e -> (length w + length acc <= 254)%nat ->
  t_chars (w ++ e :: rest) acc = Ok (e :: rest, rev w ++ acc).
Proof.
  induction w as [| c w IH]; intros acc e rest F E L; cbn [app t_chars].
  - replace ((e =? ch_space) || (e =? ch_nl) || (e =? ch_cr)) with true; [reflexivity |].
    unfold is_end, ch_space, ch_nl, ch_cr in *. lia.
  - inversion_clear F as [| ? ? F1 F2]. unfold word_char in F1.
    replace ((c =? ch_space) || (c =? ch_nl) || (c =? ch_cr)) with false by (unfold ch_space, ch_nl, ch_cr; lia).
    cbn [length] in L. replace (length acc <? token_size - 1)%nat with true by (unfold token_size; lia).
    rewrite IH; auto; [| cbn [length]; lia]. cbn [rev]. now rewrite <- app_assoc.
Qed.

Lemma t_token_word0 : forall w e rest m, word w -> is_end e -> t_token (w ++ e :: rest) m = Ok (e :: rest, store w m).
Proof.
  intros w e rest m (NE & Fw & L) E. unfold t_token.
  assert (B : t_blank (w ++ e :: rest) = Ok (w ++ e :: rest)).
  { destruct w as [| c w]; [congruence |]. inversion_clear Fw as [| ? ? F1 F2]. unfold word_char in F1. cbn [app t_blank].
    replace ((c =? ch_space) || (c =? ch_tab)) with false by (unfold ch_space, ch_tab; lia). reflexivity. }
  rewrite B. cbn [bind]. rewrite t_chars_word; auto; [| cbn [length]; lia]. cbn [bind].
  now rewrite app_nil_r, rev_involutive.
Qed.

Lemma t_token_word : forall w e rest m, word w -> is_end e -> t_token (32 :: w ++ e :: rest) m = Ok (e :: rest, store w m).
Proof. intros w e rest m W E. unfold t_token. cbn [t_blank]. apply (t_token_word0 w e rest m W E). Qed.

Lemma cstr_word : forall w m, Forall word_char w -> cstr (store w m) = Ok w.
Proof.
  intros w m H. unfold store. generalize (skipn (S (length w)) m) as tail. intros tail.
  induction H as [| c w Hc _ IH]; cbn [map app cstr]; [reflexivity |]. unfold word_char in Hc.
  replace (c =? 0) with false by lia. now rewrite IH.
Qed.

(* ---- numbers ---- *)

Lemma digits_show : forall ds e tail acc len, Forall (fun c => is_digit c = true) ds -> is_digit e = false ->
  digits_of (map Some ds ++ Some e :: tail) acc len =
  Ok (fold_left (fun a c => 10 * a + (c - 48)) ds acc, (len + length ds)%nat).
Proof.
  induction ds as [| c ds IH]; intros e tail acc len F E; cbn [map app digits_of fold_left length].
  - rewrite E. now rewrite Nat.add_0_r.
  - inversion_clear F as [| ? ? F1 F2]. rewrite F1. rewrite IH by assumption. f_equal. f_equal. lia.
Qed.

Lemma skipn_here : forall A (pre l : list A), skipn (length pre) (pre ++ l) = l.
Proof. induction pre as [| x pre IH]; intros l; cbn; auto. Qed.

Lemma mget_here : forall pre c tail, mget (pre ++ Some c :: tail) (length pre) = Ok c.
Proof. intros pre c tail. unfold mget. rewrite nth_error_app2 by lia. now rewrite Nat.sub_diag. Qed.

Lemma strtol_show : forall pre z e tail, int_range z -> is_digit e = false ->
  strtol (pre ++ map Some (show_int z) ++ Some e :: tail) (length pre) = Ok (z, (length pre + length (show_int z))%nat).
Proof.
  intros pre z e tail R E. unfold strtol. rewrite skipn_here. unfold show_int.
  destruct (Z.ltb_spec z 0) as [Hz | Hz].
  - destruct (dec_spec (Z.to_N (- z))) as (D1 & D2 & D3 & _). set (ds := dec (Z.to_N (- z))) in *. clearbody ds.
    cbn [map app white_len]. change (is_white 45) with false. cbn [bind].
    rewrite Nat.add_0_r, mget_here. cbn [bind]. change (45 =? 45) with true. cbn [orb]. cbv zeta.
    replace (pre ++ Some 45 :: map Some ds ++ Some e :: tail) with ((pre ++ [Some 45]) ++ map Some ds ++ Some e :: tail)
      by (rewrite <- app_assoc; reflexivity).
    replace (length pre + 1)%nat with (length (pre ++ [Some 45])) by (rewrite app_length; reflexivity).
    rewrite skipn_here, digits_show by assumption. cbn [bind].
    replace (0 + length ds =? 0)%nat with false by (destruct ds; [congruence | reflexivity]).
    change (fold_left (fun a c => 10 * a + (c - 48)) ds 0) with (digits_value ds). rewrite D3. unfold int_range in R.
    replace (Z.max (- 2 ^ 63) (Z.min (- Z.of_N (Z.to_N (- z))) (2 ^ 63 - 1))) with z by lia.
    rewrite int32_pat32 by exact R. f_equal. f_equal. rewrite app_length. cbn [length]. lia.
  - destruct (dec_spec (Z.to_N z)) as (D1 & D2 & D3 & _). set (ds := dec (Z.to_N z)) in *. clearbody ds.
    destruct ds as [| c ds]; [congruence |]. pose proof D1 as D1'. inversion_clear D1 as [| ? ? Dc Ds].
    cbn [map app white_len]. assert (Hc : 48 <= c <= 57) by (unfold is_digit in Dc; lia).
    replace (is_white c) with false by (unfold is_white; lia). cbn [bind]. rewrite Nat.add_0_r, mget_here. cbn [bind].
    replace (c =? 45) with false by lia. replace (c =? 43) with false by lia. cbn [orb]. cbv zeta.
    rewrite skipn_here. change (Some c :: map Some ds ++ Some e :: tail) with (map Some (c :: ds) ++ Some e :: tail).
    rewrite digits_show by assumption. cbn [bind].
    change (0 + length (c :: ds) =? 0)%nat with false. cbn match.
    change (fold_left (fun a c => 10 * a + (c - 48)) (c :: ds) 0) with (digits_value (c :: ds)). rewrite D3. unfold int_range in R.
    replace (Z.max (- 2 ^ 63) (Z.min (Z.of_N (Z.to_N z)) (2 ^ 63 - 1))) with z by lia.
    now rewrite int32_pat32 by exact R.
Qed.

Lemma strtol_show0 : forall z e tail, int_range z -> is_digit e = false ->
  strtol (map Some (show_int z) ++ Some e :: tail) 0 = Ok (z, length (show_int z)).
Proof. intros z e tail R E. exact (strtol_show [] z e tail R E). Qed.

Definition dflt (o : option Z) : Z := match o with Some z => z | None => 0%Z end.

Lemma face_indices_show : forall c m, corner_ok c ->
  face_indices (store (show_corner c) m) = Ok (c_v c, dflt (c_t c), dflt (c_n c)).
Proof.
  intros [v t n] m (Rv & Ht & Hn). cbn [c_v c_t c_n] in *. unfold face_indices, store, show_corner. cbn [c_v c_t c_n].
  generalize (skipn (S (length (show_int v ++ match t with
     | Some t0 => match n with Some n0 => [47] ++ show_int t0 ++ [47] ++ show_int n0 | None => [47] ++ show_int t0 end
     | None => match n with Some n0 => [47; 47] ++ show_int n0 | None => [] end end))) m) as tail. intros tail.
  rewrite map_app, <- app_assoc.
  destruct t as [t |], n as [n |].
  - destruct (Ht t eq_refl) as [Rt _]. pose proof (Hn n eq_refl) as Rn. cbn [map app dflt].
    rewrite (strtol_show0 v 47) by (auto; reflexivity). cbn [bind].
    pose proof (mget_here (map Some (show_int v)) 47) as M. rewrite map_length in M. rewrite M. cbn [bind].
    change (47 =? 0) with false. cbn match.
    rewrite map_app, <- app_assoc. cbn [map app].
    set (pre := map Some (show_int v) ++ [Some 47]).
    replace (map Some (show_int v) ++ Some 47 :: map Some (show_int t) ++ Some 47 :: map Some (show_int n) ++ Some 0 :: tail)
      with (pre ++ map Some (show_int t) ++ Some 47 :: map Some (show_int n) ++ Some 0 :: tail)
      by (unfold pre; rewrite <- app_assoc; reflexivity).
    assert (Lp : (length (show_int v) + 1)%nat = length pre) by (unfold pre; rewrite app_length, map_length; reflexivity).
    rewrite Lp.
    assert (NS : exists c, mget (pre ++ map Some (show_int t) ++ Some 47 :: map Some (show_int n) ++ Some 0 :: tail) (length pre) = Ok c /\ c <> 47).
    { unfold show_int at 1. destruct (t <? 0)%Z.
      - exists 45. split; [apply mget_here | discriminate].
      - destruct (dec_spec (Z.to_N t)) as (D1 & D2 & _). destruct (dec (Z.to_N t)) as [| c ds]; [congruence |]. exists c.
        split; [apply mget_here |]. inversion_clear D1 as [| ? ? Dc Ds]. unfold is_digit in Dc. lia. }
    destruct NS as (c & -> & Nc). cbn [bind]. replace (c =? ch_slash) with false by (unfold ch_slash; lia).
    rewrite strtol_show by (auto; reflexivity). cbn [bind].
    set (pre2 := pre ++ map Some (show_int t) ++ [Some 47]).
    replace (pre ++ map Some (show_int t) ++ Some 47 :: map Some (show_int n) ++ Some 0 :: tail)
      with (pre2 ++ map Some (show_int n) ++ Some 0 :: tail) by (unfold pre2; rewrite <- !app_assoc; reflexivity).
    replace (length pre + length (show_int t) + 1)%nat with (length pre2)
      by (unfold pre2; rewrite !app_length, map_length; cbn [length]; lia).
    rewrite strtol_show by (auto; reflexivity). reflexivity.
  - exfalso. destruct (Ht t eq_refl) as [_ K]. congruence.
  - pose proof (Hn n eq_refl) as Rn. cbn [map app dflt].
    rewrite (strtol_show0 v 47) by (auto; reflexivity). cbn [bind].
    pose proof (mget_here (map Some (show_int v)) 47) as M. rewrite map_length in M. rewrite M. cbn [bind].
    change (47 =? 0) with false. cbn match.
    set (pre := map Some (show_int v) ++ [Some 47]).
    replace (map Some (show_int v) ++ Some 47 :: Some 47 :: map Some (show_int n) ++ Some 0 :: tail)
      with (pre ++ Some 47 :: map Some (show_int n) ++ Some 0 :: tail)
      by (unfold pre; rewrite <- app_assoc; reflexivity).
    assert (Lp : (length (show_int v) + 1)%nat = length pre) by (unfold pre; rewrite app_length, map_length; reflexivity).
    rewrite Lp, mget_here. cbn [bind]. change (47 =? ch_slash) with true. cbn match. cbn [bind].
    set (pre2 := pre ++ [Some 47]).
    replace (pre ++ Some 47 :: map Some (show_int n) ++ Some 0 :: tail)
      with (pre2 ++ map Some (show_int n) ++ Some 0 :: tail) by (unfold pre2; rewrite <- app_assoc; reflexivity).
    replace (length pre + 1)%nat with (length pre2) by (unfold pre2; rewrite app_length; reflexivity).
    rewrite strtol_show by (auto; reflexivity). reflexivity.
  - cbn [map app dflt]. rewrite (strtol_show0 v 0) by (auto; reflexivity). cbn [bind].
    pose proof (mget_here (map Some (show_int v)) 0) as M. rewrite map_length in M. rewrite M. reflexivity.
Qed.

Lemma show_int_word : forall z, Forall word_char (show_int z) /\ show_int z <> [] /\ (int_range z -> (length (show_int z) <= 11)%nat).
Proof.
  intros z. assert (D : forall n, Forall word_char (dec n)).
  { intros n. destruct (dec_spec n) as (D1 & _). eapply Forall_impl; [| exact D1]. intros c H. unfold is_digit in H. unfold word_char. lia. }
  assert (L : forall n, n < 10 ^ 10 -> (length (dec n) <= 10)%nat).
  { intros n H. destruct (dec_spec n) as (_ & _ & _ & D4). apply (D4 9%nat). exact H. }
  unfold show_int, int_range. destruct (z <? 0)%Z eqn:E.
  - split; [constructor; [unfold word_char; lia | apply D] |]. split; [discriminate |]. intros R. cbn [length].
    specialize (L (Z.to_N (- z))). lia.
  - split; [apply D |]. split; [apply dec_spec |]. intros R. specialize (L (Z.to_N z)). lia.
Qed.

Lemma show_corner_word : forall c, corner_ok c -> word (show_corner c).
Proof.
  intros [v t n] (Rv & Ht & Hn). cbn [c_v c_t c_n] in *. unfold word, show_corner. cbn [c_v c_t c_n].
  destruct (show_int_word v) as (W1 & W2 & W3). specialize (W3 Rv).
  assert (SL : word_char 47) by (unfold word_char; lia).
  split; [intros H; apply app_eq_nil in H; tauto |].
  destruct t as [t |], n as [n |].
  - destruct (show_int_word t) as (T1 & T2 & T3). destruct (show_int_word n) as (N1 & N2 & N3).
    destruct (Ht t eq_refl) as [Rt _]. specialize (T3 Rt). specialize (N3 (Hn n eq_refl)). split.
    + apply Forall_app. split; [exact W1 |]. cbn [app]. constructor; [exact SL |]. apply Forall_app. split; [exact T1 |]. constructor; assumption.
    + rewrite app_length. cbn [app length]. rewrite app_length. cbn [length]. lia.
  - exfalso. destruct (Ht t eq_refl). congruence.
  - destruct (show_int_word n) as (N1 & N2 & N3). specialize (N3 (Hn n eq_refl)). split.
    + apply Forall_app. split; [exact W1 |]. cbn [app]. constructor; [exact SL |]. constructor; assumption.
    + rewrite app_length. cbn [app length]. lia.
  - rewrite app_nil_r. split; [exact W1 | lia].
Qed.

Lemma find_index_pick : forall A (l : list A) i a, pick l i = Some a -> find_index l i = Found a.
Proof.
  intros A l i a H. unfold pick in H. unfold find_index, vec_at. destruct (0 <? i)%Z eqn:P.
  - assert (L : (Z.to_nat (i - 1) < length l)%nat) by (apply nth_error_Some; congruence).
    replace (i =? 0)%Z with false by lia. replace (i <? 0)%Z with false by lia.
    replace (i <=? Z.of_nat (length l))%Z with true by lia. replace (i - 1 <? 0)%Z with false by lia. now rewrite H.
  - destruct (i <? 0)%Z eqn:Q; cbn [andb] in H; [| discriminate]. destruct (- i <=? Z.of_nat (length l))%Z eqn:K; [| discriminate].
    replace (i =? 0)%Z with false by lia. replace (Z.of_nat (length l) + i <? 0)%Z with false by lia. now rewrite H.
Qed.

Section Doc.
  Context {F B : Type} (strtof : list N -> F) (f0 f1 : F)
    (face_normal : F * F * F -> F * F * F -> F * F * F -> F * F * F)
    (mtl_get : list N -> option B) (mtl_default : B).

  Notation crn := (point (F := F) * option (F * F) * option (point (F := F)))%type.

  (* a vertex of the specification as the structure of the program *)
  Definition conv (v : vert) : vertex := mk_vertex (F := F) (fst (fst v)) (snd (fst v)) (snd v).
  Definition conv3 (t : vert * vert * vert) : tri := (conv (fst (fst t)), conv (snd (fst t)), conv (snd t)).

  Definition vtx (c : crn) : vertex :=
    mk_vertex (fst (fst c)) (match snd c with Some n => n | None => (f0, f0, f0) end)
              (match snd (fst c) with Some t => t | None => (f0, f0) end).
  Definition no_t (c : crn) : bool := match snd (fst c) with Some _ => false | None => true end.
  Definition no_n (c : crn) : bool := match snd c with Some _ => false | None => true end.

  Lemma read_vertex_show : forall vs ts ns c m k, corner_ok c -> corner_of vs ts ns c = Some k ->
    read_vertex f0 vs ts ns (store (show_corner c) m) = Ok (FVertex (vtx k) (no_t k) (no_n k)).
  Proof.
    intros vs ts ns c m k O H. unfold read_vertex. rewrite face_indices_show by exact O. cbn [bind].
    unfold corner_of in H. destruct (pick vs (c_v c)) as [p |] eqn:Ep; [| discriminate].
    rewrite (find_index_pick (F * F * F) _ _ _ Ep).
    destruct (c_t c) as [ti |]; cbn [dflt].
    - destruct (pick ts ti) as [t |] eqn:Et; cbn [option_map] in H; [| destruct (c_n c); discriminate].
      rewrite (find_index_pick (F * F) _ _ _ Et).
      destruct (c_n c) as [ni |]; cbn [dflt].
      + destruct (pick ns ni) as [n |] eqn:En; cbn [option_map] in H; [| discriminate].
        rewrite (find_index_pick (F * F * F) _ _ _ En). injection H as <-. reflexivity.
      + injection H as <-. reflexivity.
    - destruct (c_n c) as [ni |]; cbn [dflt].
      + destruct (pick ns ni) as [n |] eqn:En; cbn [option_map] in H; [| discriminate].
        rewrite (find_index_pick (F * F * F) _ _ _ En). injection H as <-. reflexivity.
      + injection H as <-. reflexivity.
  Qed.

  Lemma read_face_show : forall vs ts ns cs ks fuel rest m acc a b,
    Forall corner_ok cs -> all (map (corner_of vs ts ns) cs) = Some ks -> (length cs < fuel)%nat ->
    exists m', read_face f0 plain fuel vs ts ns (words (map show_corner cs) ++ 10 :: rest) m acc a b =
      Ok (10 :: rest, m', FLine (acc ++ map vtx ks) (a || existsb no_t ks) (b || existsb no_n ks)).
  Proof.
    induction cs as [| c cs IH]; intros ks fuel rest m acc a b Fc H L; (destruct fuel as [| fuel]; [cbn in L; lia |]); cbn [read_face].
    - cbn in H. injection H as <-. cbn. exists m. now rewrite app_nil_r, !orb_false_r.
    - inversion_clear Fc as [| ? ? Fc1 Fc2]. cbn [map all] in H.
      destruct (corner_of vs ts ns c) as [k |] eqn:Ek; [| discriminate].
      destruct (all (map (corner_of vs ts ns) cs)) as [ks' |] eqn:Eks; [| discriminate]. injection H as <-.
      assert (E : exists e r, words (map show_corner cs) ++ 10 :: rest = e :: r /\ is_end e).
      { destruct cs as [| c2 cs]; cbn; eexists _, _; (split; [reflexivity |]); unfold is_end; auto. }
      destruct E as (e & r & E & Ee).
      assert (W : words (map show_corner (c :: cs)) ++ 10 :: rest = 32 :: show_corner c ++ e :: r).
      { rewrite <- E. cbn [map]. unfold words. cbn [map concat app]. now rewrite <- app_assoc. }
      rewrite W. change (in_peek plain (32 :: show_corner c ++ e :: r) =? ch_space) with true. cbn match.
      change (in_token plain (32 :: show_corner c ++ e :: r) m) with (t_token (32 :: show_corner c ++ e :: r) m).
      rewrite t_token_word by (auto using show_corner_word). cbn [bind].
      rewrite (read_vertex_show _ _ _ _ _ _ Fc1 Ek). cbn [bind]. rewrite <- E.
      destruct (IH ks' fuel rest (store (show_corner c) m) (acc ++ [vtx k]) (a || no_t k) (b || no_n k) Fc2 eq_refl) as (m' & Em); [cbn in L; lia |].
      rewrite Em. exists m'. cbn [map existsb]. now rewrite <- app_assoc, !orb_assoc.
  Qed.

  (* ---- triangulation ---- *)

  Lemma fan_eq : forall (nt : bool) (W : crn -> vertex) (vv : crn -> F * F -> vertex) a rest x y,
    (if nt then set_t (f1, f0) x else x) = vv y (f1, f0) ->
    (forall c o, In c rest -> (if nt then set_t o (W c) else W c) = vv c o) ->
    fan f0 f1 nt a x (map W rest) =
    map (fun bc => (a, vv (fst bc) (f1, f0), vv (snd bc) (f1, f1))) (combine (y :: rest) rest).
  Proof.
    intros nt W vv a. induction rest as [| z rest IH]; intros x y Hx Hr; [reflexivity |].
    cbn [map fan combine fst snd]. rewrite Hx. pose proof (Hr z (f1, f1) (or_introl eq_refl)) as Hz. rewrite Hz.
    f_equal. apply IH.
    - rewrite <- Hz. pose proof (Hr z (f1, f0) (or_introl eq_refl)) as Hz0. destruct nt; [| exact Hz0].
      rewrite <- Hz0. unfold set_t. reflexivity.
    - intros c o Hc. apply Hr. now right.
  Qed.

  Lemma existsb_forallb : forall A (f : A -> bool) l, existsb f l = negb (forallb (fun x => negb (f x)) l).
  Proof. intros A f. induction l as [| x l IH]; cbn; [reflexivity |]. rewrite IH. destruct (f x); reflexivity. Qed.

  Lemma triangulate_show : forall ks, (3 <= length ks)%nat ->
    exists vs, with_normals face_normal (existsb no_n ks) (map vtx ks) = Ok vs /\
      triangulate f0 f1 (existsb no_t ks) vs = Some (map conv3 (face_triangles f0 f1 face_normal ks)).
  Proof.
    intros ks L. destruct ks as [| c0 [| c1 [| c2 rest]]]; cbn [length] in L; try lia. clear L.
    set (ks := c0 :: c1 :: c2 :: rest).
    set (fn := face_normal (fst (fst c0)) (fst (fst c1)) (fst (fst c2))).
    set (has_t := forallb (fun c : crn => match snd (fst c) with Some _ => true | None => false end) ks).
    set (has_n := forallb (fun c : crn => match snd c with Some _ => true | None => false end) ks).
    assert (Et : existsb no_t ks = negb has_t).
    { rewrite existsb_forallb. unfold has_t. f_equal.
      assert (G : forall l, forallb (fun x => negb (no_t x)) l = forallb (fun c : crn => match snd (fst c) with Some _ => true | None => false end) l).
      { induction l as [| x l IH]; cbn; [reflexivity |]. rewrite IH. unfold no_t. destruct (snd (fst x)); reflexivity. }
      apply G. }
    assert (En : existsb no_n ks = negb has_n).
    { rewrite existsb_forallb. unfold has_n. f_equal.
      assert (G : forall l, forallb (fun x => negb (no_n x)) l = forallb (fun c : crn => match snd c with Some _ => true | None => false end) l).
      { induction l as [| x l IH]; cbn; [reflexivity |]. rewrite IH. unfold no_n. destruct (snd x); reflexivity. }
      apply G. }
    set (normal := fun c : crn => match snd c with Some n => if has_n then n else fn | None => fn end).
    set (texture := fun (c : crn) other => match snd (fst c) with Some t => if has_t then t else other | None => other end).
    set (W := fun c : crn => mk_vertex (fst (fst c)) (normal c) (match snd (fst c) with Some t => t | None => (f0, f0) end)).
    assert (HN : with_normals face_normal (existsb no_n ks) (map vtx ks) = Ok (map W ks)).
    { rewrite En. unfold with_normals, ks. destruct has_n eqn:Hh; cbn [negb].
      - f_equal. apply map_ext_in. intros c Hc. unfold vtx, W, normal.
        unfold has_n in Hh. rewrite forallb_forall in Hh. specialize (Hh c Hc).
        destruct (snd c); [reflexivity | discriminate].
      - cbn [map]. change (vx_p (vtx c0)) with (fst (fst c0)). change (vx_p (vtx c1)) with (fst (fst c1)).
        change (vx_p (vtx c2)) with (fst (fst c2)). fold fn. f_equal.
        assert (G : forall c, set_n fn (vtx c) = W c).
        { intros c. unfold W, set_n, vtx, normal. cbn. destruct (snd c); reflexivity. }
        rewrite <- !G, map_map. f_equal. f_equal. f_equal. apply map_ext. exact G. }
    exists (map W ks). split; [exact HN |]. rewrite Et.
    set (vv := fun (c : crn) o => mk_vertex (F := F) (fst (fst c)) (normal c) (texture c o)).
    assert (HV : forall c o, In c ks -> (if negb has_t then set_t o (W c) else W c) = vv c o).
    { intros c o Hc. unfold vv, W, set_t, texture. cbn [vx_p vx_n]. destruct has_t eqn:Hh; cbn [negb].
      - unfold has_t in Hh. rewrite forallb_forall in Hh. specialize (Hh c Hc). destruct (snd (fst c)); [reflexivity | discriminate].
      - destruct (snd (fst c)); reflexivity. }
    unfold triangulate, ks. cbn [map]. f_equal. unfold face_triangles. fold ks. fold has_t. fold has_n. fold fn.
    cbv zeta. rewrite map_map. cbn [tl combine map].
    rewrite !HV by (unfold ks; cbn; auto). f_equal.
    rewrite (fan_eq (negb has_t) W vv (vv c0 (f0, f0)) rest (vv c2 (f1, f1)) c2).
    - reflexivity.
    - rewrite <- (HV c2 (f1, f0)) by (unfold ks; cbn; auto). rewrite <- (HV c2 (f1, f1)) by (unfold ks; cbn; auto).
      destruct (negb has_t); reflexivity.
    - intros c o Hc. apply HV. unfold ks. cbn. auto.
  Qed.

  (* ---- the invariant ---- *)

  Notation object := (object (F := F) (B := B)).
  Notation state := (state (F := F) (B := B)).
  Notation locals := (locals (F := F) (B := B)).
  Notation material := (material mtl_get mtl_default).
  Notation known := (known mtl_get).
  Notation step := (step strtof f0 f1 face_normal mtl_get mtl_default).
  Notation steps := (steps strtof f0 f1 face_normal mtl_get mtl_default).
  Notation plines := (lines strtof f0 f1 face_normal mtl_get plain).
  Notation pswitch := (switch strtof f0 f1 face_normal mtl_get plain).

  (* a mesh that was read is an object of the specification: its name, its first
     million triangles, and the material that the asset gives for every face *)
  Definition same (r : result (F := F) (B := B)) (o : object) : Prop :=
    r_name r = o_name o /\
    ms_tris (r_mesh r) = firstn (N.to_nat max_tris) (map (fun f => conv3 (fst f)) (o_faces o)) /\
    length (r_assoc r) = length (o_faces o) /\
    forall i f, nth_error (o_faces o) i = Some f -> get_material (r_mats r) (r_assoc r) i = Ok (Some (snd f)).

  Definition look (n : list N) (used : list (list N * N)) : option N :=
    option_map snd (find (fun e => str_eqb (fst e) n) used).

  Definition points (mats : list B) (a : N) (b : B) : Prop := a < 256 /\ nth_error mats (N.to_nat a) = Some b.

  Record minv (o : object) (mat : B) (l : locals) : Prop := {
    mi_mats : l_mats l = mtl_default :: map material (o_mtls o);
    mi_look : forall n i, look n (l_used l) = Some i -> points (l_mats l) i (material n);
    mi_none : forall n, look n (l_used l) = None -> n <> default_word /\ ~ In n (o_mtls o);
    mi_some : forall n i, look n (l_used l) = Some i -> known n <> None -> In n (o_mtls o);
    mi_cur : points (l_mats l) (l_current l) mat;
    mi_assoc : Forall2 (fun a (f : vert * vert * vert * B) => points (l_mats l) a (snd f)) (l_assoc l) (o_faces o) }.

  Record finv (o : object) (l : locals) : Prop := {
    fi_name : l_name l = o_name o;
    fi_tris : ms_tris (l_mesh l) = firstn (N.to_nat max_tris) (map (fun f => conv3 (fst f)) (o_faces o));
    fi_mesh : mesh_ok (l_mesh l);
    fi_ret : l_ret l = negb (is_empty (o_faces o)) }.

  Definition pinv (s : state) (p : parser (F := F) (list N)) : Prop :=
    p_vertices p = st_v s /\ p_textures p = st_t s /\ p_normals p = st_n s /\ p_groups p = st_groups s /\ p_craft p = 0.

  Definition inv (s : state) (p : parser (F := F) (list N)) (l : locals) : Prop :=
    pinv s p /\ minv (st_cur s) (st_mat s) l /\ finv (st_cur s) l.

  Lemma str_eqb_eq : forall a b, str_eqb a b = true <-> a = b.
  Proof. intros a b. unfold str_eqb. destruct (list_eq_dec N.eq_dec a b); split; congruence. Qed.

  Lemma look_cons : forall a i n used, look n ((a, i) :: used) = if str_eqb a n then Some i else look n used.
  Proof. intros a i n used. unfold look. cbn [find fst]. destruct (str_eqb a n); reflexivity. Qed.

  Lemma points_app : forall mats x a b, points mats a b -> points (mats ++ x) a b.
  Proof.
    intros mats x a b [H1 H2]. split; [exact H1 |]. rewrite nth_error_app1; [exact H2 |]. apply nth_error_Some. congruence.
  Qed.

  (* the entries of the spec after usemtl *)
  Definition mtls_after (n : list N) (m : list (list N)) : list (list N) :=
    match known n with None => m | Some _ => if in_dec (list_eq_dec N.eq_dec) n m then m else m ++ [n] end.

  Lemma use_material_inv : forall o mat l n, minv o mat l -> (length (mtls_after n (o_mtls o)) <= 254)%nat ->
    minv (mk_object (o_name o) (o_faces o) (mtls_after n (o_mtls o))) (material n) (use_material mtl_get l n).
  Proof.
    intros o mat l n [M1 M2 M3 M4 M5 M6] L. unfold use_material. fold (look n (l_used l)).
    destruct (find (fun e => str_eqb (fst e) n) (l_used l)) as [[n' i] |] eqn:Ef.
    - assert (Lk : look n (l_used l) = Some i) by (unfold look; now rewrite Ef).
      assert (E : mtls_after n (o_mtls o) = o_mtls o).
      { unfold mtls_after. destruct (known n) as [b |] eqn:Ek; [| reflexivity].
        destruct (in_dec (list_eq_dec N.eq_dec) n (o_mtls o)) as [_ | N]; [reflexivity |].
        exfalso. apply N. apply (M4 n i Lk). congruence. }
      rewrite E. split; cbn [l_mats l_used l_current l_assoc with_material o_mtls o_faces]; auto.
    - assert (Lk : look n (l_used l) = None) by (unfold look; now rewrite Ef).
      destruct (M3 n Lk) as [Nd Ni].
      assert (Kn : known n = mtl_get n) by (unfold ObjSpec.known; destruct (list_eq_dec N.eq_dec n default_word); congruence).
      destruct (mtl_get n) as [b |] eqn:Eg.
      + assert (E : mtls_after n (o_mtls o) = o_mtls o ++ [n]).
        { unfold mtls_after. rewrite Kn. destruct (in_dec (list_eq_dec N.eq_dec) n (o_mtls o)); [contradiction | reflexivity]. }
        rewrite E in L |- *. rewrite app_length in L. cbn [length] in L.
        assert (Mn : material n = b) by (unfold ObjSpec.material; now rewrite Kn).
        assert (Ll : length (l_mats l) = S (length (o_mtls o))) by (rewrite M1; cbn [length]; now rewrite map_length).
        assert (U : u8 (N.of_nat (length (l_mats l))) = N.of_nat (length (l_mats l))) by (unfold u8; apply N.mod_small; lia).
        assert (P : points (l_mats l ++ [b]) (N.of_nat (length (l_mats l))) (material n)).
        { split; [lia |]. rewrite Nat2N.id, nth_error_app2 by lia. rewrite Nat.sub_diag, Mn. reflexivity. }
        split; cbn [l_mats l_used l_current l_assoc with_material o_mtls o_faces].
        * rewrite M1, map_app. cbn [map app]. now rewrite Mn.
        * intros n1 i. rewrite look_cons. destruct (str_eqb n n1) eqn:Es.
          -- intros H. injection H as <-. apply str_eqb_eq in Es. subst n1. now rewrite U.
          -- intros H. apply points_app. now apply M2.
        * intros n1. rewrite look_cons. destruct (str_eqb n n1) eqn:Es; [discriminate |]. intros H. destruct (M3 _ H) as [H1 H2].
          split; [exact H1 |]. rewrite in_app_iff. intros [K | [K | []]]; [contradiction |].
          assert (str_eqb n n1 = true) by (now apply str_eqb_eq). congruence.
        * intros n1 i. rewrite look_cons. destruct (str_eqb n n1) eqn:Es.
          -- intros _ _. apply str_eqb_eq in Es. subst n1. apply in_app_iff. right. now left.
          -- intros H K. apply in_app_iff. left. exact (M4 _ _ H K).
        * now rewrite U.
        * clear - M6. induction M6 as [| a f la lf P _ IH]; constructor; auto using points_app.
      + assert (E : mtls_after n (o_mtls o) = o_mtls o) by (unfold mtls_after; now rewrite Kn).
        rewrite E. assert (Mn : material n = mtl_default) by (unfold ObjSpec.material; now rewrite Kn).
        assert (P : points (l_mats l) 0 (material n)) by (split; [lia |]; rewrite M1, Mn; reflexivity).
        split; cbn [l_mats l_used l_current l_assoc with_material o_mtls o_faces]; auto.
        * intros n1 i. rewrite look_cons. destruct (str_eqb n n1) eqn:Es; [| apply M2].
          intros H. injection H as <-. apply str_eqb_eq in Es. now subst n1.
        * intros n1. rewrite look_cons. destruct (str_eqb n n1); [discriminate |]. apply M3.
        * intros n1 i. rewrite look_cons. destruct (str_eqb n n1) eqn:Es; [| apply M4].
          intros _ K. apply str_eqb_eq in Es. subst n1. congruence.
  Qed.

  Lemma firstn_firstn_app : forall A n (a b : list A), firstn n (firstn n a ++ b) = firstn n (a ++ b).
  Proof.
    intros A n a b. rewrite !firstn_app, firstn_firstn, Nat.min_id. f_equal. rewrite firstn_length.
    destruct (Nat.le_gt_cases (length a) n) as [H | H].
    - now rewrite Nat.min_r by lia.
    - rewrite Nat.min_l by lia. rewrite Nat.sub_diag. replace (n - length a)%nat with 0%nat by lia. reflexivity.
  Qed.

  (* a face: its triangles are added with the current material *)
  Lemma face_inv : forall o mat l ts, minv o mat l -> finv o l -> ts <> [] ->
    exists mm, add_triangles (l_mesh l) (map conv3 ts) = Ok mm /\
      let o' := mk_object (o_name o) (o_faces o ++ map (fun t => (t, mat)) ts) (o_mtls o) in
      let l' := mk_locals (l_mats l) (l_assoc l ++ repeat (l_current l) (length (map conv3 ts))) (l_used l) (l_current l)
                          (l_name l) mm true in
      minv o' mat l' /\ finv o' l'.
  Proof.
    intros o mat l ts [M1 M2 M3 M4 M5 M6] [F1 F2 F3 F4] NE.
    destruct (adds_ok _ (map conv3 ts) (l_mesh l) F3) as (mm & Em & Et & Eo). exists mm. split; [exact Em |]. cbv zeta. split.
    - split; cbn [l_mats l_used l_current l_assoc o_mtls o_faces]; auto. apply Forall2_app; [exact M6 |]. rewrite map_length.
      clear - M5. induction ts as [| t ts IH]; cbn [length repeat map]; constructor; auto.
    - split; cbn [l_name l_mesh l_ret o_name o_faces]; auto.
      + rewrite Et, F2, map_app, map_map. cbn [fst]. apply firstn_firstn_app.
      + destruct ts; [congruence |]. destruct (o_faces o); reflexivity.
  Qed.

  Lemma forall2_nth : forall A C (R : A -> C -> Prop) a b, Forall2 R a b -> forall i y, nth_error b i = Some y ->
    exists x, nth_error a i = Some x /\ R x y.
  Proof.
    intros A C R a b H. induction H as [| x y a b Hxy _ IH]; intros [| i] z Hi; cbn in *; try discriminate; eauto.
    injection Hi as <-. eauto.
  Qed.

  Lemma forall2_len : forall A C (R : A -> C -> Prop) a b, Forall2 R a b -> length a = length b.
  Proof. intros A C R a b H. induction H; cbn; congruence. Qed.

  Definition finished (o : object) : object := match o_name o with [] => name_object o unnamed | _ => o end.

  Lemma finalize_inv : forall o mat l, minv o mat l -> finv o l -> (length (o_mtls o) <= 254)%nat ->
    exists r, finalize_mesh l (l_ret l) = Ok (Returned r) /\ r_ret r = negb (is_empty (o_faces o)) /\
      (o_faces o <> [] -> same r (finished o)) /\ (length (r_mats r) <= 255)%nat.
  Proof.
    intros o mat l [M1 M2 M3 M4 M5 M6] [F1 F2 F3 F4] L. unfold finalize_mesh.
    assert (Ll : length (l_mats l) = S (length (o_mtls o))) by (rewrite M1; cbn [length]; now rewrite map_length).
    assert (Ln : length (l_assoc l) = length (o_faces o)) by (exact (forall2_len _ _ _ _ _ M6)).
    destruct (l_assoc l) as [| a0 rest] eqn:Ea.
    - cbn [is_nil]. eexists. split; [reflexivity |]. cbn [r_ret r_mats]. split; [exact F4 |]. split.
      + intros NE. destruct (o_faces o); [congruence | discriminate].
      + rewrite map_length. lia.
    - cbn [is_nil]. rewrite <- Ea in *.
      destruct (compact_ok B (l_mats l) (l_assoc l)) as (mats' & assoc' & Ec & C1 & C2 & C3 & C4 & _).
      { clear - M6. induction M6 as [| a f la lf [P1 P2] _ IH]; constructor; auto. split; [exact P1 |].
        apply nth_error_Some. congruence. }
      rewrite Ec. cbn [bind]. eexists. split; [reflexivity |]. cbn [r_ret r_mats]. split; [exact F4 |]. split; [| lia].
      intros _. unfold same. cbn [r_name r_mesh r_assoc r_mats].
      assert (Ff : o_faces (finished o) = o_faces o) by (unfold finished, name_object; destruct (o_name o); reflexivity).
      rewrite Ff. split; [| split; [| split]].
      + rewrite F1. unfold finished, name_object. destruct (o_name o) eqn:En; cbn; [reflexivity | now rewrite En].
      + rewrite <- F2. unfold mesh_trim. destruct (ms_count (l_mesh l) <? ms_alloc (l_mesh l)); reflexivity.
      + congruence.
      + intros i f Hi. destruct (forall2_nth _ _ _ _ _ M6 i f Hi) as (a & Ha & _ & Hp). rewrite (C2 i a Ha). now rewrite Hp.
  Qed.

  (* ---- one statement ---- *)

  Lemma line_end : forall b rest, ~ In 10 b -> t_line (b ++ 10 :: rest) = Ok rest.
  Proof.
    induction b as [| c b IH]; intros rest H; cbn [app t_line]; [reflexivity |].
    replace (c =? ch_nl) with false; [apply IH; intros K; apply H; now right |].
    unfold ch_nl. destruct (N.eqb_spec c 10) as [-> |]; [exfalso; apply H; now left | reflexivity].
  Qed.

  Lemma t_chars_line : forall t acc rest, ~ In 10 t -> exists b w, t_chars (t ++ 10 :: rest) acc = Ok (b ++ 10 :: rest, w ++ acc) /\ ~ In 10 b.
  Proof.
    induction t as [| c t IH]; intros acc rest H; cbn [app t_chars].
    - exists [], []. split; [reflexivity | intros []].
    - destruct ((c =? ch_space) || (c =? ch_nl) || (c =? ch_cr)).
      + exists (c :: t), []. split; [reflexivity | exact H].
      + assert (H' : ~ In 10 t) by (intros K; apply H; now right).
        destruct (length acc <? token_size - 1)%nat.
        * destruct (IH (c :: acc) rest H') as (b & w & E & Hb). exists b, (w ++ [c]). rewrite <- app_assoc. auto.
        * apply IH. exact H'.
  Qed.

  Lemma token_float_word : forall w e rest m, word w -> is_end e ->
    token_float strtof plain (32 :: w ++ e :: rest) m = Ok (e :: rest, store w m, strtof w).
  Proof.
    intros w e rest m W E. unfold token_float. change (in_token plain) with t_token.
    rewrite t_token_word by assumption. cbn [bind]. destruct W as (_ & W & _). rewrite cstr_word by exact W. reflexivity.
  Qed.

  Lemma line_go : forall fuel p m l s1 m1 p2 m2 l2 rest, p_craft p = 0 -> t_peek (p_src p) <> guard ->
    t_token (p_src p) m = Ok (s1, m1) -> pswitch (S fuel) (with_src p s1) m1 l = Ok (Go p2 m2 l2) ->
    t_line (p_src p2) = Ok rest -> plines (S fuel) p m l = plines fuel (with_src p2 rest) m2 l2.
  Proof.
    intros fuel p m l s1 m1 p2 m2 l2 rest Hc Hp Ht Hs Hl. cbn [lines].
    change (in_peek plain) with t_peek. destruct (N.eqb_spec (t_peek (p_src p)) guard) as [E | _]; [contradiction |].
    unfold keyword. rewrite Hc. change (negb (0 =? 0)) with false. cbn match. change (in_token plain) with t_token.
    rewrite Ht. cbn [bind]. rewrite Hs. cbn [bind]. change (in_line plain) with t_line. rewrite Hl. reflexivity.
  Qed.

  Lemma word_10 : forall w, word w -> ~ In 10 w.
  Proof. intros w (_ & W & _) H. rewrite Forall_forall in W. apply W in H. unfold word_char in H. lia. Qed.

  Lemma end32 : is_end 32. Proof. now left. Qed.
  Lemma end10 : is_end 10. Proof. right. now left. Qed.
  Hint Resolve end32 end10 : core.

  Lemma kw_word : forall w, Forall word_char w -> w <> [] -> (length w <= 254)%nat -> word w.
  Proof. intros w H1 H2 H3. split; auto. Qed.

  Lemma words_1 : forall a rest, words [a] ++ 10 :: rest = 32 :: a ++ 10 :: rest.
  Proof. intros a rest. unfold words. cbn [map concat app]. now rewrite app_nil_r. Qed.
  Lemma words_2 : forall a b rest, words [a; b] ++ 10 :: rest = 32 :: a ++ 32 :: b ++ 10 :: rest.
  Proof. intros a b rest. unfold words. cbn [map concat app]. rewrite app_nil_r, <- app_assoc. reflexivity. Qed.
  Lemma words_3 : forall a b c rest, words [a; b; c] ++ 10 :: rest = 32 :: a ++ 32 :: b ++ 32 :: c ++ 10 :: rest.
  Proof. intros a b c rest. unfold words. cbn [map concat app]. rewrite app_nil_r, <- !app_assoc. cbn [app]. rewrite <- app_assoc. reflexivity. Qed.


  Lemma show_app : forall x rest, show x ++ rest =
    match x with
    | SV a b c => [118] ++ 32 :: a ++ 32 :: b ++ 32 :: c ++ 10 :: rest
    | ST a b => [118; 116] ++ 32 :: a ++ 32 :: b ++ 10 :: rest
    | SN a b c => [118; 110] ++ 32 :: a ++ 32 :: b ++ 32 :: c ++ 10 :: rest
    | SF cs => [102] ++ words (map show_corner cs) ++ 10 :: rest
    | SU n => [117; 115; 101; 109; 116; 108] ++ 32 :: n ++ 10 :: rest
    | SO n => [111] ++ 32 :: n ++ 10 :: rest
    | SG n => [103] ++ 32 :: n ++ 10 :: rest
    | SX l => l ++ 10 :: rest
    end.
  Proof.
    intros [a b c | a b | a b c | cs | n | n | n | l] rest; unfold show; rewrite <- !app_assoc; change ([10] ++ rest) with (10 :: rest);
      rewrite ?words_1, ?words_2, ?words_3; reflexivity.
  Qed.

  Ltac kw := apply kw_word; [repeat constructor; lia | discriminate | cbn; lia].

  Lemma first_object_inv : forall n, n <> [] ->
    let o := name_object (object0 (F := F) (B := B)) n in
    let l := mk_locals [mtl_default] [] [(word_default, 0)] 0 n (mesh_new 1) false in
    minv o mtl_default l /\ finv o l.
  Proof.
    intros n Hn o l. split.
    - split; cbn [l l_mats l_used l_current l_assoc o name_object object0 o_mtls o_faces map].
      + reflexivity.
      + intros n1 i. rewrite look_cons. destruct (str_eqb word_default n1) eqn:E; [| discriminate]. intros H. injection H as <-.
        apply str_eqb_eq in E. subst n1. split; [lia | reflexivity].
      + intros n1. rewrite look_cons. destruct (str_eqb word_default n1) eqn:E; [discriminate |]. intros _. split; [| intros []].
        intros ->. discriminate.
      + intros n1 i. rewrite look_cons. destruct (str_eqb word_default n1) eqn:E; [| discriminate]. intros _ K. apply str_eqb_eq in E.
        subst n1. exfalso. apply K. reflexivity.
      + split; [lia | reflexivity].
      + constructor.
    - split; cbn [l l_name l_mesh l_ret o name_object object0 o_name o_faces map].
      + reflexivity.
      + now rewrite firstn_nil.
      + unfold mesh_ok, mesh_new, ms_count, max_tris. cbn. lia.
      + reflexivity.
  Qed.

  Lemma named_inv : forall o mat l n, minv o mat l -> finv o l -> minv (name_object o n) mat (with_name l n) /\ finv (name_object o n) (with_name l n).
  Proof. intros o mat l n [M1 M2 M3 M4 M5 M6] [F1 F2 F3 F4]. split; split; auto. Qed.

  Lemma all_len : forall A (l : list (option A)) r, all l = Some r -> length r = length l.
  Proof.
    induction l as [| [x |] l IH]; intros r H; cbn [all] in H; [injection H as <-; reflexivity | | discriminate].
    destruct (all l); [| discriminate]. injection H as <-. cbn. f_equal. now apply IH.
  Qed.

  Lemma step_doc : forall fuel s x s' p m l rest, stmt_ok x -> step s x = Some s' -> inv s p l ->
    p_src p = show x ++ rest -> (length (show x) <= fuel)%nat -> (length (o_mtls (st_cur s')) <= 254)%nat -> clean (p_src p) ->
    (exists p' m' l', plines (S fuel) p m l = plines fuel p' m' l' /\ p_src p' = rest /\ inv s' p' l' /\ st_done s' = st_done s) \/
    (exists p', plines (S fuel) p m l = (let! o := finalize_mesh l (l_ret l) in Ok (p', o)) /\
      o_name (st_cur s) <> [] /\ st_done s' = st_done s ++ [st_cur s] /\
      forall k, exists p2 m2 l2,
        get_next_mesh strtof f0 f1 face_normal mtl_get mtl_default plain (S k) p' (mesh_new 1) = plines k p2 m2 l2 /\
        p_src p2 = rest /\ inv s' p2 l2).
  Proof.
    intros fuel s x s' p m l rest O St ((Pv & Pt & Pn & Pg & Pc) & Mi & Fi) Ps Lf Lm Cl.
    rewrite show_app in Ps.
    destruct x as [x y z | u v | x y z | cs | n | n | n | line]; cbn [ObjSpec.step stmt_ok] in *.
    - (* v *)
      injection St as <-. destruct O as (Ox & Oy & Oz). left.
      eexists _, _, _. split; [| split; [| split]].
      + eapply line_go with (rest := rest).
        * exact Pc.
        * rewrite Ps. discriminate.
        * rewrite Ps. apply (t_token_word0 [118] 32); [kw | auto].
        * unfold switch, store. cbn [map app mget nth_error bind]. change (118 =? 118) with true. cbn match.
          unfold case_v. cbn [map app mget nth_error bind p_src with_src]. change (0 =? 116) with false. cbn match.
          unfold token_float3. rewrite (token_float_word x 32) by auto. cbn [bind].
          rewrite (token_float_word y 32) by auto. cbn [bind]. rewrite (token_float_word z 10) by auto. cbn [bind].
          change (0 =? 110) with false. cbn match. reflexivity.
        * reflexivity.
      + reflexivity.
      + split; [| split; [exact Mi | exact Fi]]. unfold pinv. cbn. rewrite Pv. auto 10.
      + reflexivity.
    - (* vt *)
      injection St as <-. destruct O as (Ou & Ov). left.
      eexists _, _, _. split; [| split; [| split]].
      + eapply line_go with (rest := rest).
        * exact Pc.
        * rewrite Ps. discriminate.
        * rewrite Ps. apply (t_token_word0 [118; 116] 32); [kw | auto].
        * unfold switch, store. cbn [map app mget nth_error bind]. change (118 =? 118) with true. cbn match.
          unfold case_v. cbn [map app mget nth_error bind p_src with_src]. change (116 =? 116) with true. cbn match.
          rewrite (token_float_word u 32) by auto. cbn [bind].
          rewrite (token_float_word v 10) by auto. cbn [bind]. reflexivity.
        * reflexivity.
      + reflexivity.
      + split; [| split; [exact Mi | exact Fi]]. unfold pinv. cbn. rewrite Pt. auto 10.
      + reflexivity.
    - (* vn *)
      injection St as <-. destruct O as (Ox & Oy & Oz). left.
      eexists _, _, _. split; [| split; [| split]].
      + eapply line_go with (rest := rest).
        * exact Pc.
        * rewrite Ps. discriminate.
        * rewrite Ps. apply (t_token_word0 [118; 110] 32); [kw | auto].
        * unfold switch, store. cbn [map app mget nth_error bind]. change (118 =? 118) with true. cbn match.
          unfold case_v. cbn [map app mget nth_error bind p_src with_src]. change (110 =? 116) with false. cbn match.
          unfold token_float3. rewrite (token_float_word x 32) by auto. cbn [bind].
          rewrite (token_float_word y 32) by auto. cbn [bind]. rewrite (token_float_word z 10) by auto. cbn [bind].
          change (110 =? 110) with true. cbn match. reflexivity.
        * reflexivity.
      + reflexivity.
      + split; [| split; [exact Mi | exact Fi]]. unfold pinv. cbn. rewrite Pn. auto 10.
      + reflexivity.
    - (* f *)
      destruct (all (map (corner_of (st_v s) (st_t s) (st_n s)) cs)) as [ks |] eqn:Ek; [| discriminate].
      destruct (3 <=? length ks)%nat eqn:L3; [| discriminate]. apply Nat.leb_le in L3. injection St as <-. left.
      assert (Lc : length ks = length cs) by (rewrite (all_len _ _ _ Ek); apply map_length).
      assert (Lw : (length cs <= length (words (map show_corner cs)))%nat).
      { clear. unfold words. induction cs as [| c cs IH]; cbn [map concat length]; [lia |]. cbn [app length]. rewrite app_length. lia. }
      assert (Lf' : (length cs < S fuel)%nat).
      { unfold show in Lf. rewrite !app_length in Lf. lia. }
      destruct (read_face_show (st_v s) (st_t s) (st_n s) cs ks (S fuel) rest (store [102] m) [] false false O Ek Lf') as (m1 & Er).
      destruct (triangulate_show ks L3) as (vs & En & Et).
      assert (NE : face_triangles f0 f1 face_normal ks <> []).
      { destruct ks as [| k0 [| k1 [| k2 ks]]]; cbn [length] in L3; try lia. discriminate. }
      destruct (face_inv (st_cur s) (st_mat s) l _ Mi Fi NE) as (mm & Ea & Mi' & Fi').
      assert (Tw : exists tail, words (map show_corner cs) ++ 10 :: rest = 32 :: tail).
      { destruct cs as [| c cs]; [cbn in Lc; lia |]. eexists. reflexivity. }
      destruct Tw as (tail & Tw).
      eexists _, _, _. split; [| split; [| split]].
      + eapply line_go with (rest := rest).
        * exact Pc.
        * rewrite Ps. discriminate.
        * rewrite Ps, Tw. apply (t_token_word0 [102] 32); [kw | auto].
        * unfold switch. replace (mget (store [102] m) 0) with (Ok 102) by reflexivity. cbn [bind]. change (102 =? 118) with false. change (102 =? 117) with false.
          change (102 =? 111) with false. change (102 =? 103) with false. change (102 =? 102) with true. cbn match.
          unfold case_f. cbn [p_vertices p_textures p_normals p_src with_src]. rewrite Pv, Pt, Pn, <- Tw, Er. cbn [bind].
          cbn [app orb]. rewrite En. cbn [bind]. rewrite Et. rewrite Ea. cbn [bind]. reflexivity.
        * reflexivity.
      + reflexivity.
      + split; [| split; [exact Mi' | exact Fi']]. unfold pinv. cbn. auto 10.
      + reflexivity.
    - (* usemtl *)
      injection St as <-. left.
      assert (Mi' : minv (mk_object (o_name (st_cur s)) (o_faces (st_cur s)) (mtls_after n (o_mtls (st_cur s)))) (material n)
                      (use_material mtl_get l n)) by (eapply use_material_inv; [exact Mi | exact Lm]).
      eexists _, _, _. split; [| split; [| split]].
      + eapply line_go with (rest := rest).
        * exact Pc.
        * rewrite Ps. discriminate.
        * rewrite Ps. apply (t_token_word0 [117; 115; 101; 109; 116; 108] 32); [kw | auto].
        * unfold switch. match goal with |- context [mget ?a 0] => replace (mget a 0) with (Ok 117) by reflexivity end.
          cbn [bind]. change (117 =? 118) with false. change (117 =? 117) with true. cbn match.
          unfold case_u. rewrite cstr_word by (repeat constructor; lia). cbn [bind].
          change (str_eqb [117; 115; 101; 109; 116; 108] word_usemtl) with true. cbn match.
          cbn [p_src with_src]. change (in_token plain) with t_token. rewrite t_token_word by auto. cbn [bind].
          rewrite cstr_word by (apply O). cbn [bind]. reflexivity.
        * reflexivity.
      + reflexivity.
      + split; [unfold pinv; cbn; auto 10 |]. split; [exact Mi' |]. destruct Fi as [F1 F2 F3 F4]. unfold use_material.
        destruct (find (fun e => str_eqb (fst e) n) (l_used l)) as [[n' i] |]; [split; auto |]. destruct (mtl_get n); split; auto.
      + reflexivity.
    - (* o *)
      injection St as <-. pose proof (fi_name _ _ Fi) as En. unfold new_object in *.
      destruct (o_name (st_cur s)) as [| c0 w0] eqn:Eo.
      + left. destruct (named_inv _ _ _ n Mi Fi) as [Mi' Fi'].
        eexists _, _, _. split; [| split; [| split]].
        * eapply line_go with (rest := rest).
          -- exact Pc.
          -- rewrite Ps. discriminate.
          -- rewrite Ps. apply (t_token_word0 [111] 32); [kw | auto].
          -- unfold switch. match goal with |- context [mget ?a 0] => replace (mget a 0) with (Ok 111) by reflexivity end.
             cbn [bind]. change (111 =? 118) with false. change (111 =? 117) with false. change (111 =? 111) with true. cbn match.
             unfold case_o. rewrite En. cbn [is_nil negb]. cbn [p_src with_src]. change (in_token plain) with t_token.
             rewrite t_token_word by auto. cbn [bind]. rewrite cstr_word by (apply O). cbn [bind]. reflexivity.
          -- reflexivity.
        * reflexivity.
        * split; [unfold pinv; cbn; auto 10 |]. split; [exact Mi' | exact Fi'].
        * reflexivity.
      + right. eexists. split; [| split; [discriminate |]; split; [reflexivity |]].
        * cbn [lines]. change (in_peek plain) with t_peek. rewrite Ps.
          change (t_peek ([111] ++ 32 :: n ++ 10 :: rest) =? guard) with false. cbn match.
          unfold keyword. rewrite Pc. change (negb (0 =? 0)) with false. cbn match. change (in_token plain) with t_token.
          rewrite Ps, (t_token_word0 [111] 32) by (auto; kw). cbn [bind].
          unfold switch. match goal with |- context [mget ?a 0] => replace (mget a 0) with (Ok 111) by reflexivity end.
          cbn [bind]. change (111 =? 118) with false. change (111 =? 117) with false. change (111 =? 111) with true. cbn match.
          unfold case_o. rewrite En. cbn [is_nil negb]. unfold leave. destruct (finalize_mesh l (l_ret l)); reflexivity.
        * intros k. destruct (first_object_inv n ltac:(apply O)) as [Mi' Fi'].
          eexists _, _, _. split; [| split].
          -- unfold get_next_mesh. cbn [lines p_src with_src]. change (in_peek plain (32 :: n ++ 10 :: rest) =? guard) with false. cbn match.
             unfold keyword. cbn [p_craft]. change (negb (111 =? 0)) with true. cbn match. cbn [bind].
             unfold switch. match goal with |- context [mget ?a 0] => replace (mget a 0) with (Ok 111) by reflexivity end.
             cbn [bind]. change (111 =? 118) with false. change (111 =? 117) with false. change (111 =? 111) with true. cbn match.
             unfold case_o. cbn [l_name is_nil negb p_src]. change (in_token plain) with t_token. rewrite t_token_word by auto. cbn [bind].
             rewrite cstr_word by (apply O). cbn [bind]. change (in_line plain) with t_line. cbn [p_src with_src].
             change (t_line (10 :: rest)) with (Ok rest). cbn [bind]. reflexivity.
          -- reflexivity.
          -- split; [unfold pinv; cbn; auto 10 |]. split; [exact Mi' | exact Fi'].
    - (* g *)
      pose proof (fi_name _ _ Fi) as En. unfold new_object in *.
      destruct (o_name (st_cur s)) as [| c0 w0] eqn:Eo.
      + rewrite orb_true_r in St. injection St as <-. left. destruct (named_inv _ _ _ n Mi Fi) as [Mi' Fi'].
        eexists _, _, _. split; [| split; [| split]].
        * eapply line_go with (rest := rest).
          -- exact Pc.
          -- rewrite Ps. discriminate.
          -- rewrite Ps. apply (t_token_word0 [103] 32); [kw | auto].
          -- unfold switch. match goal with |- context [mget ?a 0] => replace (mget a 0) with (Ok 103) by reflexivity end.
             cbn [bind]. change (103 =? 118) with false. change (103 =? 117) with false. change (103 =? 111) with false.
             change (103 =? 103) with true. cbn match.
             unfold case_g. rewrite En. cbn [is_nil negb andb orb]. cbn [p_src with_src]. change (in_token plain) with t_token.
             rewrite t_token_word by auto. cbn [bind]. rewrite cstr_word by (apply O). cbn [bind]. reflexivity.
          -- reflexivity.
        * reflexivity.
        * split; [unfold pinv; cbn; auto 10 |]. split; [exact Mi' | exact Fi'].
        * reflexivity.
      + cbn [is_empty] in St. rewrite orb_false_r in St. destruct (st_groups s) eqn:Eg.
        * injection St as <-. right. eexists. split; [| split; [discriminate |]; split; [reflexivity |]].
          -- cbn [lines]. change (in_peek plain) with t_peek. rewrite Ps.
             change (t_peek ([103] ++ 32 :: n ++ 10 :: rest) =? guard) with false. cbn match.
             unfold keyword. rewrite Pc. change (negb (0 =? 0)) with false. cbn match. change (in_token plain) with t_token.
             rewrite Ps, (t_token_word0 [103] 32) by (auto; kw). cbn [bind].
             unfold switch. match goal with |- context [mget ?a 0] => replace (mget a 0) with (Ok 103) by reflexivity end.
             cbn [bind]. change (103 =? 118) with false. change (103 =? 117) with false. change (103 =? 111) with false.
             change (103 =? 103) with true. cbn match.
             unfold case_g. rewrite En. cbn [p_groups with_src]. rewrite Pg. cbn [is_nil negb andb]. unfold leave.
             destruct (finalize_mesh l (l_ret l)); reflexivity.
          -- intros k. destruct (first_object_inv n ltac:(apply O)) as [Mi' Fi'].
             eexists _, _, _. split; [| split].
             ++ unfold get_next_mesh. cbn [lines p_src with_src]. change (in_peek plain (32 :: n ++ 10 :: rest) =? guard) with false. cbn match.
                unfold keyword. cbn [p_craft]. change (negb (103 =? 0)) with true. cbn match. cbn [bind].
                unfold switch. match goal with |- context [mget ?a 0] => replace (mget a 0) with (Ok 103) by reflexivity end.
                cbn [bind]. change (103 =? 118) with false. change (103 =? 117) with false. change (103 =? 111) with false.
                change (103 =? 103) with true. cbn match.
                unfold case_g. cbn [l_name is_nil negb andb orb p_src]. change (in_token plain) with t_token. rewrite t_token_word by auto. cbn [bind].
                rewrite cstr_word by (apply O). cbn [bind]. change (in_line plain) with t_line. cbn [p_src with_src].
                change (t_line (10 :: rest)) with (Ok rest). cbn [bind]. reflexivity.
             ++ reflexivity.
             ++ split; [unfold pinv; cbn; auto 10 |]. split; [exact Mi' | exact Fi'].
        * injection St as <-. left. eexists _, _, _. split; [| split; [| split]].
          -- eapply line_go with (rest := rest).
             ++ exact Pc.
             ++ rewrite Ps. discriminate.
             ++ rewrite Ps. apply (t_token_word0 [103] 32); [kw | auto].
             ++ unfold switch. match goal with |- context [mget ?a 0] => replace (mget a 0) with (Ok 103) by reflexivity end.
                cbn [bind]. change (103 =? 118) with false. change (103 =? 117) with false. change (103 =? 111) with false.
                change (103 =? 103) with true. cbn match.
                unfold case_g. rewrite En. cbn [p_groups with_src]. rewrite Pg. cbn [is_nil negb andb orb]. reflexivity.
             ++ cbn [p_src with_src]. apply (line_end (32 :: n)). intros [K | K]; [discriminate | exact (word_10 _ O K)].
          -- reflexivity.
          -- split; [unfold pinv; cbn; rewrite Eg; auto 10 |]. split; [exact Mi | exact Fi].
          -- reflexivity.
    - (* other lines *)
      injection St as <-. left. destruct O as (O7 & O10 & Of).
      assert (H : exists b tok c, t_token (line ++ 10 :: rest) m = Ok (b ++ 10 :: rest, store tok m) /\ ~ In 10 b /\
                    mget (store tok m) 0 = Ok c /\ ~ In c [118; 117; 111; 103; 102]).
      { destruct line as [| c line].
        - exists [], [], 0. split; [reflexivity |]. split; [intros [] |]. split; [reflexivity |]. cbn. lia.
        - assert (Ht : t_token ((c :: line) ++ 10 :: rest) m =
                    let! (t, acc) := t_chars ((c :: line) ++ 10 :: rest) [] in Ok (t, store (rev acc) m)).
          { unfold t_token. cbn [app t_blank].
            replace ((c =? ch_space) || (c =? ch_tab)) with false; [reflexivity |]. cbn in Of. unfold ch_space, ch_tab. lia. }
          rewrite Ht. cbn [app t_chars]. destruct ((c =? ch_space) || (c =? ch_nl) || (c =? ch_cr)).
          + cbn [bind]. exists (c :: line), [], 0. split; [reflexivity |]. split; [exact O10 |]. split; [reflexivity |]. cbn. lia.
          + assert (O10' : ~ In 10 line) by (intros K; apply O10; now right).
            change (length [] <? token_size - 1)%nat with true. cbn match.
            destruct (t_chars_line line [c] rest O10') as (b & w & E & Hb). rewrite E. cbn [bind]. rewrite rev_unit.
            exists b, (c :: rev w), c. split; [reflexivity |]. split; [exact Hb |]. split; [reflexivity |]. cbn in Of |- *. lia. }
      destruct H as (b & tok & c & Ht & Hb & Hm & Hc).
      eexists _, _, _. split; [| split; [| split]].
      + eapply line_go with (rest := rest).
        * exact Pc.
        * rewrite Ps in *. destruct line as [| c1 line]; [discriminate |]. cbn. inversion_clear Cl. exact H.
        * rewrite Ps. exact Ht.
        * unfold switch. rewrite Hm. cbn [bind]. cbn in Hc.
          replace (c =? 118) with false by lia. replace (c =? 117) with false by lia. replace (c =? 111) with false by lia.
          replace (c =? 103) with false by lia. replace (c =? 102) with false by lia. reflexivity.
        * cbn [p_src with_src]. now apply line_end.
      + reflexivity.
      + split; [unfold pinv; cbn; auto 10 |]. split; [exact Mi | exact Fi].
      + reflexivity.
  Qed.

  (* ---- the document ---- *)

  Lemma step_grow : forall s x s', step s x = Some s' ->
    (st_done s' = st_done s /\ (length (o_mtls (st_cur s)) <= length (o_mtls (st_cur s')))%nat) \/
    st_done s' = st_done s ++ [st_cur s].
  Proof.
    intros s x s' H. assert (NO : forall g n, let s1 := new_object mtl_default s g n in
      (st_done s1 = st_done s /\ (length (o_mtls (st_cur s)) <= length (o_mtls (st_cur s1)))%nat) \/ st_done s1 = st_done s ++ [st_cur s]).
    { intros g n. unfold new_object. destruct (o_name (st_cur s)); cbn; auto. }
    destruct x as [x y z | u v | x y z | cs | n | n | n | line]; cbn [ObjSpec.step] in H.
    1-3, 8: injection H as <-; left; auto.
    - destruct (all (map (corner_of (st_v s) (st_t s) (st_n s)) cs)); [| discriminate]. destruct (3 <=? length l)%nat; [| discriminate].
      injection H as <-. left. auto.
    - injection H as <-. left. cbn [st_done st_cur o_mtls]. split; [reflexivity |]. destruct (known n); [| lia].
      destruct (in_dec (list_eq_dec N.eq_dec) n (o_mtls (st_cur s))); [lia |]. rewrite app_length. lia.
    - injection H as <-. apply NO.
    - destruct (st_groups s || is_empty (o_name (st_cur s))); injection H as <-; [apply NO | auto].
  Qed.

  Definition few (o : object) : Prop := (length (o_mtls o) <= 254)%nat.

  Lemma steps_grow : forall d s s', steps s d = Some s' -> exists more, st_done s' = st_done s ++ more /\
    (Forall few more -> few (st_cur s') -> few (st_cur s)).
  Proof.
    induction d as [| x d IH]; intros s s' H; cbn [ObjSpec.steps] in H.
    - injection H as <-. exists []. rewrite app_nil_r. auto.
    - destruct (step s x) as [s1 |] eqn:E; [| discriminate]. destruct (IH _ _ H) as (more & E2 & B2).
      destruct (step_grow _ _ _ E) as [[D1 L1] | D1].
      + exists more. rewrite E2, D1. split; [reflexivity |]. intros K1 K2. specialize (B2 K1 K2). unfold few in *. lia.
      + exists (st_cur s :: more). rewrite E2, D1, <- app_assoc. split; [reflexivity |]. intros K _. now inversion_clear K.
  Qed.

  Definition continue (calls n : nat) (x : parser (F := F) (list N) * outcome (F := F) (B := B)) : res (option (list result)) :=
    let (p, o) := x in
    match o with
    | Thrown => Ok None
    | Returned r =>
      if r_ret r then
        let! r := keep_mesh r in
        let! rest := load strtof f0 f1 face_normal mtl_get mtl_default plain calls n p in
        Ok (match rest with Some rs => Some (r :: rs) | None => None end)
      else Ok (Some [])
    end.

  Lemma load_unfold : forall calls n p, load strtof f0 f1 face_normal mtl_get mtl_default plain (S calls) n p =
    bind (get_next_mesh strtof f0 f1 face_normal mtl_get mtl_default plain n p (mesh_new 1)) (continue calls n).
  Proof. reflexivity. Qed.

  Lemma keep_same : forall r o, same r o -> (length (r_mats r) <= 255)%nat -> exists r', keep_mesh r = Ok r' /\ same r' o.
  Proof.
    intros r o S L. unfold keep_mesh, u8. rewrite N.mod_small by lia. replace (Nat.min (length (r_mats r)) 256) with (length (r_mats r)) by lia.
    rewrite N.leb_refl. eexists. split; [reflexivity |]. rewrite firstn_all2 by lia. exact S.
  Qed.

  Lemma clean_app : forall a b, clean (a ++ b) -> clean a /\ clean b.
  Proof. intros a b H. apply Forall_app in H. exact H. Qed.

  Lemma show_pos : forall x, (1 <= length (show x))%nat.
  Proof. intros x. unfold show. rewrite app_length. cbn [length]. lia. Qed.

  Lemma run_doc : forall d s s' p m l fuel calls n, Forall stmt_ok d -> steps s d = Some s' -> inv s p l ->
    p_src p = show_doc d -> clean (p_src p) -> Forall few (st_done s') -> few (st_cur s') ->
    (length (show_doc d) < fuel)%nat -> (length (show_doc d) + 1 < n)%nat -> (length d < calls)%nat ->
    exists rs, bind (plines fuel p m l) (continue calls n) = Ok (Some rs) /\
      Forall2 same rs (until_empty (skipn (length (st_done s)) (st_done s' ++ [finished (st_cur s')]))).
  Proof.
    induction d as [| x d IH]; intros s s' p m l fuel calls n O St I Ps Cl Fd Fc Lf Ln Lc.
    - cbn [ObjSpec.steps] in St. injection St as <-. destruct fuel as [| fuel]; [lia |]. destruct calls as [| calls]; [lia |].
      destruct n as [| n]; [lia |]. destruct I as (P & Mi & Fi). cbn in Ps.
      destruct (finalize_inv _ _ _ Mi Fi Fc) as (r & Er & Rr & Rs & Rl).
      assert (El : plines (S fuel) p m l = Ok (p, Returned r)).
      { cbn [lines]. rewrite Ps. change (in_peek plain [] =? guard) with true. cbn match. now rewrite Er. }
      rewrite El. cbn [bind]. unfold continue. rewrite skipn_here.
      assert (Ff : o_faces (finished (st_cur s)) = o_faces (st_cur s)) by (unfold finished; destruct (o_name (st_cur s)); reflexivity).
      cbn [until_empty]. rewrite Ff, Rr. destruct (o_faces (st_cur s)) as [| f fs]; cbn [is_empty negb].
      + exists []. split; [reflexivity | constructor].
      + destruct (keep_same r _ (Rs ltac:(discriminate)) Rl) as (r' & Ek & Sr). rewrite Ek. cbn [bind].
        assert (E0 : load strtof f0 f1 face_normal mtl_get mtl_default plain (S calls) (S n) p = Ok (Some [])).
        { rewrite load_unfold. unfold get_next_mesh. cbn [lines]. rewrite Ps. change (in_peek plain [] =? guard) with true. cbn match.
          reflexivity. }
        rewrite E0. cbn [bind]. exists [r']. split; [reflexivity |]. constructor; [exact Sr | constructor].
    - cbn [ObjSpec.steps] in St. destruct (step s x) as [s1 |] eqn:E; [| discriminate]. inversion_clear O as [| ? ? O1 O2].
      unfold show_doc in Ps, Lf, Ln. cbn [map concat] in Ps, Lf, Ln. fold (show_doc d) in Ps, Lf, Ln. rewrite app_length in Lf, Ln.
      pose proof (show_pos x) as Lx. destruct fuel as [| fuel]; [lia |].
      destruct (steps_grow _ _ _ St) as (more & E2 & B2).
      assert (Fm : Forall few more) by (rewrite E2 in Fd; apply Forall_app in Fd; tauto).
      specialize (B2 Fm Fc). cbn [length] in Lc.
      assert (Cl2 : clean (show_doc d)) by (rewrite Ps in Cl; now apply clean_app in Cl).
      destruct (step_doc fuel s x s1 p m l (show_doc d) O1 E I Ps ltac:(lia) B2 Cl) as [(p1 & m1 & l1 & El & Ps1 & I1 & D1) | (p1 & El & En & D1 & K)].
      + rewrite El, <- D1. apply IH; auto; try lia. rewrite Ps1. exact Cl2.
      + rewrite El. destruct I as (P & Mi & Fi).
        assert (Fs : few (st_cur s)).
        { rewrite E2, D1, <- app_assoc in Fd. apply Forall_app in Fd. destruct Fd as [_ Fd]. now inversion_clear Fd. }
        destruct (finalize_inv _ _ _ Mi Fi Fs) as (r & Er & Rr & Rs & Rl). rewrite Er. cbn [bind]. unfold continue.
        assert (Ef : finished (st_cur s) = st_cur s) by (unfold finished; destruct (o_name (st_cur s)); congruence).
        assert (Sk : skipn (length (st_done s)) (st_done s' ++ [finished (st_cur s')]) =
                     st_cur s :: skipn (length (st_done s1)) (st_done s' ++ [finished (st_cur s')])).
        { transitivity (st_cur s :: more ++ [finished (st_cur s')]).
          - rewrite E2, D1, <- !app_assoc, skipn_here. reflexivity.
          - f_equal. rewrite E2, <- app_assoc, skipn_here. reflexivity. }
        rewrite Sk. cbn [until_empty]. rewrite Rr. destruct (o_faces (st_cur s)) as [| f fs] eqn:Eo; cbn [is_empty negb].
        * exists []. split; [reflexivity | constructor].
        * rewrite Ef in Rs. destruct (keep_same r _ (Rs ltac:(discriminate)) Rl) as (r' & Ek & Sr). rewrite Ek. cbn [bind].
          destruct calls as [| calls]; [lia |]. destruct n as [| n]; [lia |]. rewrite load_unfold.
          destruct (K n) as (p2 & m2 & l2 & Eg & Ps2 & I2). rewrite Eg.
          destruct (IH s1 s' p2 m2 l2 n calls (S n) O2 St I2 Ps2 ltac:(rewrite Ps2; exact Cl2) Fd Fc ltac:(lia) ltac:(lia) ltac:(lia)) as (rs & Ers & Frs).
          rewrite Ers. cbn [bind]. exists (r' :: rs). split; [reflexivity |]. constructor; assumption.
  Qed.

  Lemma word_clean : forall w, Forall word_char w -> clean w.
  Proof. intros w H. eapply Forall_impl; [| exact H]. unfold word_char, guard. intros c K. apply K. Qed.

  Lemma words_clean : forall l, Forall (fun w => Forall word_char w) l -> clean (words l).
  Proof.
    intros l H. unfold words. induction H as [| w l Hw _ IH]; cbn [map concat app]; [constructor |].
    constructor; [discriminate |]. apply Forall_app. split; [now apply word_clean | exact IH].
  Qed.

  Lemma doc_clean : forall d, Forall stmt_ok d -> clean (show_doc d).
  Proof using.
    intros d H. unfold show_doc. induction H as [| x d Hx _ IH]; cbn [map concat]; [constructor |].
    apply Forall_app. split; [| exact IH]. unfold show.
    destruct x as [x y z | u v | x y z | cs | n | n | n | line]; cbn [stmt_ok] in Hx;
      apply Forall_app; (split; [| constructor; [discriminate | constructor]]).
    1-7: apply Forall_app; (split; [repeat constructor; discriminate |]); apply words_clean.
    all: unfold word in *; try (clear - Hx; repeat constructor; tauto).
    - apply Forall_forall. intros w Hw. apply in_map_iff in Hw. destruct Hw as (c & <- & Hc). rewrite Forall_forall in Hx.
      apply show_corner_word. auto.
    - destruct Hx as (H7 & _). apply Forall_forall. intros c Hc ->. contradiction.
  Qed.

  Lemma load_doc : forall d os n calls, Forall stmt_ok d ->
    objects strtof f0 f1 face_normal mtl_get mtl_default d = Some os -> Forall few os ->
    (length (show_doc d) + 1 < n)%nat -> (length d < calls)%nat ->
    exists rs, load strtof f0 f1 face_normal mtl_get mtl_default plain (S calls) n (start_parsing (T' := src) None (show_doc d)) = Ok (Some rs) /\
      Forall2 same rs (until_empty os).
  Proof.
    intros d os n calls O E Fo Ln Lc. unfold objects in E.
    destruct (steps (state0 mtl_default) d) as [s' |] eqn:Es; [| discriminate]. injection E as <-.
    fold (finished (st_cur s')) in *. apply Forall_app in Fo. destruct Fo as [Fd Fc].
    assert (Fc' : few (st_cur s')) by (inversion_clear Fc as [| ? ? K _]; unfold finished, few in *; destruct (o_name (st_cur s')); exact K).
    rewrite load_unfold. unfold get_next_mesh.
    assert (I0 : inv (state0 mtl_default) (start_parsing (T' := src) None (show_doc d)) (mk_locals [mtl_default] [] [(word_default, 0)] 0 [] (mesh_new 1) false)).
    { split; [unfold pinv; cbn; auto 10 |]. destruct (first_object_inv [0] ltac:(discriminate)) as [[M1 M2 M3 M4 M5 M6] [F1 F2 F3 F4]].
      split; split; auto. }
    destruct (run_doc d _ s' _ fresh_token _ n calls n O Es I0 eq_refl) as (rs & E & Fr); auto; try lia.
    { cbn. now apply doc_clean. }
    exists rs. split; [exact E | exact Fr].
  Qed.
End Doc.
