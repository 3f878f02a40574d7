(* C21 (the reader's part), C33, C34, C35, C36 and C55 - C59: reading obj files. *)
From Verif Require Import Common DecimalModel MeshModel MeshProps ObjModel ObjSpec ObjProofs ObjCompact ObjTerm ObjDoc.
Local Open Scope N_scope.

(* ---- C33 ---- *)

Lemma clean_7 : forall t, ~ In 7 t -> clean t.
Proof. intros t H. apply Forall_forall. intros c Hc ->. contradiction. Qed.

Lemma open_same : forall lax bs n text, (1 <= bs)%nat -> clean text -> (~ lax -> (2 * length text < n)%nat) ->
  same_text lax n (open_text bs text) text.
Proof.
  intros lax bs n text Hb Hc Hn. split; [apply (feed_text bs (mk_src [] text)); reflexivity |].
  split; [exact Hc |]. split; [now apply feed_live | exact Hn].
Qed.

Section Reader.
  Context {F B : Type} (strtof : list N -> F) (f0 f1 : F)
    (face_normal : F * F * F -> F * F * F -> F * F * F -> F * F * F)
    (mtl_get : list N -> option B) (mtl_default : B).

  Notation load_obj := (load_obj strtof f0 f1 face_normal mtl_get mtl_default).
  Notation pload := (load strtof f0 f1 face_normal mtl_get mtl_default plain).
  Notation start t := (start_parsing (F := F) (T' := src) None t).

  Lemma load_lax : forall bs n text, (1 <= bs)%nat -> clean text ->
    rres True eq (load_obj bs n text) (pload n n (start text)).
  Proof.
    intros bs n text Hb Hc. unfold ObjModel.load_obj.
    apply (load_sim strtof f0 f1 face_normal mtl_get mtl_default True (same_text True n) (buffered bs n) plain).
    - apply buffered_plain; auto.
    - split; [lia | auto].
    - split; [lia | auto].
    - split; [| cbn; auto 10]. apply open_same; auto. intros K. exfalso. now apply K.
  Qed.

  Lemma load_strict : forall bs n text, (1 <= bs)%nat -> clean text -> (2 * length text < n)%nat ->
    load_obj bs n text = pload n n (start text).
  Proof.
    intros bs n text Hb Hc Hn. apply rres_eq. unfold ObjModel.load_obj.
    apply (load_sim strtof f0 f1 face_normal mtl_get mtl_default False (same_text False n) (buffered bs n) plain).
    - apply buffered_plain; auto.
    - split; lia.
    - split; lia.
    - split; [| cbn; auto 10]. apply open_same; auto.
  Qed.

  Lemma load_mono : forall n n' text, (n <= n')%nat ->
    rres True eq (pload n n (start text)) (pload n' n' (start text)).
  Proof.
    intros n n' text H. apply (load_sim strtof f0 f1 face_normal mtl_get mtl_default True eq plain plain).
    - apply plain_plain.
    - split; [lia | auto].
    - split; [lia | auto].
    - split; cbn; auto 10.
  Qed.

  (* C33.  For a file without the reserved byte 7: whatever the sizes of the buffer,
     two runs that end have the same outcome, and if the run with one size ends then so
     does the one with another. *)
  Theorem obj_buffer_independent : forall bs1 bs2 text, (1 <= bs1)%nat -> (1 <= bs2)%nat -> ~ In 7 text ->
    (forall n1 n2, load_obj bs1 n1 text <> OutOfFuel -> load_obj bs2 n2 text <> OutOfFuel ->
                   load_obj bs1 n1 text = load_obj bs2 n2 text) /\
    (forall n1, load_obj bs1 n1 text <> OutOfFuel -> exists n2, load_obj bs2 n2 text = load_obj bs1 n1 text).
  Proof.
    intros bs1 bs2 text H1 H2 H7. pose proof (clean_7 text H7) as C.
    assert (UP : forall bs n N, (1 <= bs)%nat -> load_obj bs n text <> OutOfFuel -> (n <= N)%nat ->
                   pload N N (start text) = load_obj bs n text).
    { intros bs n N Hb Hn HN. pose proof (rres_lax _ _ _ (load_lax bs n text Hb C) Hn) as E1.
      pose proof (rres_lax _ _ _ (load_mono n N text HN)) as E2. rewrite <- E1 in E2. symmetry. now apply E2. }
    split.
    - intros n1 n2 K1 K2. rewrite <- (UP bs1 n1 (n1 + n2)%nat), <- (UP bs2 n2 (n1 + n2)%nat); auto; lia.
    - intros n1 K1. exists (n1 + 2 * length text + 1)%nat.
      rewrite load_strict; auto; [| lia]. apply UP; auto. lia.
  Qed.

  (* ---- C34 ---- *)

  (* For a file without the byte 7 that is empty or ends with a newline, reading it ends. *)
  Theorem obj_terminates : forall bs n text, (1 <= bs)%nat -> ~ In 7 text -> text = [] \/ (exists t, text = t ++ [10]) ->
    (2 * length text < n)%nat -> load_obj bs n text <> OutOfFuel.
  Proof.
    intros bs n text Hb H7 Ht Hn. pose proof (clean_7 text H7) as C. rewrite load_strict by auto.
    eapply fin_ne. apply load_fin; cbn; auto; lia.
  Qed.

  (* The statement fails if the last line does not end with a newline: a file of one
     such line, that does not begin with a blank, a carriage return or the letter f, is
     read forever. *)
  Theorem obj_terminates_refuted : forall bs n c line, (1 <= bs)%nat -> ~ In 7 (c :: line) -> ~ In 10 (c :: line) ->
    c <> 32 -> c <> 9 -> c <> 13 -> c <> 102 -> load_obj bs n (c :: line) = OutOfFuel.
  Proof.
    intros bs n c line Hb H7 H10 N1 N2 N3 N4. pose proof (clean_7 _ H7) as C.
    apply (rres_out _ _ _ _ _ (load_lax bs n (c :: line) Hb C)).
    destruct n as [| n]; [reflexivity |]. cbn [load]. unfold start_parsing. rewrite one_line_waits; auto.
    intros ->. apply H7. now left.
  Qed.

  (* More generally no call of get_next_mesh ever gets to the end of a file whose last
     line is unfinished: after it there is always something left to read. *)
  Theorem obj_unfinished_refuted : forall n text p' o obj, ~ In 7 text -> (exists t c, text = t ++ [c] /\ c <> 10) ->
    get_next_mesh strtof f0 f1 face_normal mtl_get mtl_default plain n (start text) obj = Ok (p', o) -> p_src p' <> [].
  Proof.
    intros n text p' o obj H7 Hu H. pose proof (clean_7 text H7) as C. unfold get_next_mesh in H.
    apply lines_keeps in H; [| cbn; split; assumption]. destruct H as (_ & t0 & c & E & _). cbn in E. intros K. rewrite K in E.
    destruct t0; discriminate.
  Qed.

  (* ---- C35, C21 ---- *)

  (* For a document of well formed statements (the text of which is [show_doc d]), all
     of whose faces have three corners or more and refer to vertices that were given,
     and with at most 254 materials for each object: reading the text gives the objects
     of the document, up to the first one without faces.  Each mesh has the name of the
     object, the triangles of the fans of its faces in order (the first million), and
     the asset finds for every face the material in use when it was read. *)
  Theorem obj_load_correct : forall d os bs n, Forall stmt_ok d ->
    objects strtof f0 f1 face_normal mtl_get mtl_default d = Some os ->
    Forall (fun o => (length (o_mtls o) <= 254)%nat) os ->
    (1 <= bs)%nat -> (2 * length (show_doc d) + 2 <= n)%nat ->
    exists rs, load_obj bs n (show_doc d) = Ok (Some rs) /\ Forall2 same rs (until_empty os).
  Proof.
    intros d os bs n O E Fo Hb Hn. pose proof (doc_clean d O) as C. rewrite load_strict by (auto; lia).
    assert (L : (length d <= length (show_doc d))%nat).
    { clear. unfold show_doc. induction d as [| x d IH]; cbn [map concat length]; [lia |]. rewrite app_length. pose proof (show_pos x). lia. }
    destruct d as [| x d].
    - injection E as <-. destruct n as [| n]; [cbn in Hn; lia |]. exists []. split; [| constructor]. reflexivity.
    - assert (Lx : (1 <= length (show_doc (x :: d)))%nat) by (cbn [length] in L; lia).
      destruct n as [| n]; [lia |]. apply load_doc; auto; cbn [length] in *; lia.
  Qed.

  (* The statement holds only up to there: the objects that follow an object without
     faces are lost, whatever they are. *)
  Theorem obj_every_object_refuted : forall d pre o post bs n, Forall stmt_ok d ->
    objects strtof f0 f1 face_normal mtl_get mtl_default d = Some (pre ++ o :: post) ->
    Forall (fun o => (length (o_mtls o) <= 254)%nat) (pre ++ o :: post) ->
    Forall (fun o => o_faces o <> []) pre -> o_faces o = [] ->
    (1 <= bs)%nat -> (2 * length (show_doc d) + 2 <= n)%nat ->
    exists rs, load_obj bs n (show_doc d) = Ok (Some rs) /\ length rs = length pre.
  Proof.
    intros d pre o post bs n O E Fo Fp Eo Hb Hn. destruct (obj_load_correct d _ bs n O E Fo Hb Hn) as (rs & El & Fr).
    exists rs. split; [exact El |]. rewrite (forall2_len _ _ _ _ _ Fr). clear - Fp Eo.
    induction pre as [| q pre IH]; cbn [app until_empty].
    - now rewrite Eo.
    - inversion_clear Fp as [| ? ? F1 F2]. destruct (o_faces q) eqn:Eq; [congruence |]. cbn [is_empty length]. f_equal. now apply IH.
  Qed.
End Reader.
Print Assumptions obj_buffer_independent.
Print Assumptions obj_terminates.
Print Assumptions obj_terminates_refuted.
Print Assumptions obj_unfinished_refuted.
Print Assumptions obj_load_correct.
Print Assumptions obj_every_object_refuted.

(* The fan of a face with n corners has n-2 triangles, and all have its first corner. *)
Theorem face_triangles_fan : forall F (f0 f1 : F) fn ks,
  length (face_triangles f0 f1 fn ks) = (length ks - 2)%nat /\
  (forall i t, nth_error (face_triangles f0 f1 fn ks) i = Some t -> exists a b c,
     nth_error ks 0 = Some a /\ nth_error ks (i + 1) = Some b /\ nth_error ks (i + 2) = Some c /\
     fst (fst (fst (fst t))) = fst (fst a) /\ fst (fst (snd (fst t))) = fst (fst b) /\ fst (fst (snd t)) = fst (fst c)).
Proof.
  intros F f0 f1 fn ks. destruct ks as [| k0 [| k1 [| k2 ks]]];
    try (split; [reflexivity | intros [| i] t H; discriminate]).
  unfold face_triangles. cbv zeta. cbn [tl]. split.
  - rewrite map_length, combine_length. cbn [length]. lia.
  - intros i t H. rewrite nth_error_map in H.
    destruct (nth_error (combine (k1 :: k2 :: ks) (k2 :: ks)) i) as [[b c] |] eqn:E; [| discriminate]. cbn [option_map] in H.
    assert (G : forall A (l l' : list A) i x y, nth_error (combine l l') i = Some (x, y) -> nth_error l i = Some x /\ nth_error l' i = Some y).
    { clear. induction l as [| u l IH]; intros [| u' l'] [| i] x y H; cbn in *; try discriminate; [injection H as <- <-; auto | auto]. }
    apply G in E. destruct E as [E1 E2]. exists k0, b, c. injection H as <-. cbn [fst snd].
    replace (i + 1)%nat with (S i) by lia. replace (i + 2)%nat with (S (S i)) by lia. cbn [nth_error]. auto 10.
Qed.
Print Assumptions face_triangles_fan.

(* A negative index -k stands for the k-th vertex from the end. *)
Theorem relative_index : forall A (l : list A) k, (1 <= k <= length l)%nat ->
  pick l (- Z.of_nat k) = pick l (Z.of_nat (length l - k + 1)) /\ pick l (- Z.of_nat k) = nth_error l (length l - k).
Proof.
  intros A l k H. unfold pick. replace (0 <? - Z.of_nat k)%Z with false by lia. replace (- Z.of_nat k <? 0)%Z with true by lia.
  replace (- - Z.of_nat k <=? Z.of_nat (length l))%Z with true by lia. cbn [andb].
  replace (0 <? Z.of_nat (length l - k + 1))%Z with true by lia.
  replace (Z.to_nat (Z.of_nat (length l) + - Z.of_nat k)) with (length l - k)%nat by lia.
  replace (Z.to_nat (Z.of_nat (length l - k + 1) - 1)) with (length l - k)%nat by lia. auto.
Qed.
Print Assumptions relative_index.

(* Concrete files.  Numbers are kept as their text, materials are their names; "red" and
   "blue" are in the library, the default material is "D". *)
Section Examples.
  Let ld (bs n : nat) (text : list N) : res (option (list result)) :=
    load_obj (F := list N) (B := list N) (fun w => w) [48] [49] (fun _ _ _ => ([], [], []))
      (fun w => if (str_eqb w [114; 101; 100] || str_eqb w [98; 108; 117; 101])%bool then Some w else None) [68] bs n text.
  Let ob (d : list stmt) := objects (F := list N) (B := list N) (fun w => w) [48] [49] (fun _ _ _ => ([], [], []))
      (fun w => if (str_eqb w [114; 101; 100] || str_eqb w [98; 108; 117; 101])%bool then Some w else None) [68] d.

  Let vertices : list stmt := [SV [49] [48] [48]; SV [48] [49] [48]; SV [48] [48] [49]; SV [49] [49] [49]].
  Let co (z : Z) := mk_corner z None None.
  Let doc : list stmt := vertices ++
    [SO [97]; SU [114; 101; 100]; SF [co 1; co 2; co 3; co 4]; SU [98; 108; 117; 101]; SF [co (-1); co (-2); co (-3)];
     SO [98]; SF [co 1; co 2; co 3]].

  (* two objects: a quad in red and a triangle in blue; a triangle in the default material *)
  Example obj_load_ex :
    match ld 3 300 (show_doc doc) with
    | Ok (Some rs) =>
      map (fun r => (r_name r, map (get_material (r_mats r) (r_assoc r)) (seq 0 (length (ms_tris (r_mesh r)))))) rs =
      [([97], [Ok (Some [114; 101; 100]); Ok (Some [114; 101; 100]); Ok (Some [98; 108; 117; 101])]); ([98], [Ok (Some [68])])]
    | _ => False
    end.
  Proof. vm_compute. reflexivity. Qed.

  Example obj_load_hyps : Forall stmt_ok doc /\
    match ob doc with
    | Some os => Forall (fun o => (length (o_mtls o) <= 254)%nat) os /\ length (until_empty os) = 2%nat
    | None => False
    end.
  Proof.
    split.
    - assert (Oc : forall z, int_range z -> corner_ok (co z)).
      { intros z R. split; [exact R |]. split; intros y K; discriminate. }
      assert (W : forall w, forallb (fun c => (48 <=? c) && (c <=? 122)) w && negb (is_empty w) && (length w <=? 254)%nat = true -> word w).
      { intros w H. rewrite !andb_true_iff, negb_true_iff in H. destruct H as [[H1 H2] H3]. split; [| split].
        - intros ->. discriminate.
        - apply Forall_forall. intros c Hc. rewrite forallb_forall in H1. specialize (H1 c Hc). unfold word_char. lia.
        - now apply Nat.leb_le. }
      unfold doc, vertices. cbn [app]. repeat apply Forall_cons; try apply Forall_nil; cbn [stmt_ok]; auto;
        repeat match goal with |- _ /\ _ => split end; first [apply W; reflexivity | apply Oc; unfold int_range; lia].
    - vm_compute. split; [| reflexivity]. repeat constructor.
  Qed.

  (* a file without a newline at its end never finishes; with one it does *)
  Example obj_wait_ex : ld 5 60 [111; 32; 97] = OutOfFuel /\ ld 5 60 [111; 32; 97; 10] = Ok (Some []).
  Proof. split; vm_compute; reflexivity. Qed.

  (* an object without faces between two others: the last one is lost *)
  Example obj_faceless_ex :
    let d := vertices ++ [SO [97]; SF [co 1; co 2; co 3]; SO [98]; SO [99]; SF [co 1; co 2; co 3]] in
    match ob d, ld 4 200 (show_doc d) with
    | Some os, Ok (Some rs) => map o_name os = [[97]; [98]; [99]] /\ map r_name rs = [[97]]
    | _, _ => False
    end.
  Proof. vm_compute. auto. Qed.
End Examples.

(* ---- C56: the material in use at the start of an object ---- *)

(* In the format a material stays in use until the next usemtl.  Here each object starts
   with the default one: for any two object names and any material of the library, the
   second object does not have it. *)
Theorem obj_material_persists_refuted : forall F B (strtof : list N -> F) f0 f1 fn (get : list N -> option B) def a b mat bm x bs,
  word a -> word b -> word mat -> word x -> known get mat = Some bm -> (1 <= bs)%nat ->
  let tri := SF [mk_corner 1 None None; mk_corner 1 None None; mk_corner 1 None None] in
  let text := show_doc [SV x x x; SO a; SU mat; tri; SO b; tri] in
  exists n r1 r2, load_obj strtof f0 f1 fn get def bs n text = Ok (Some [r1; r2]) /\
    get_material (r_mats r1) (r_assoc r1) 0 = Ok (Some bm) /\ get_material (r_mats r2) (r_assoc r2) 0 = Ok (Some def).
Proof.
  intros F B strtof f0 f1 fn get def a b mat bm x bs Wa Wb Wm Wx K Hb tri text.
  set (d := [SV x x x; SO a; SU mat; tri; SO b; tri]) in *.
  assert (O : Forall stmt_ok d).
  { assert (Oc : corner_ok (mk_corner 1 None None)).
    { split; [unfold int_range; cbn; lia |]. split; intros z K'; discriminate. }
    assert (Ot : stmt_ok tri) by (unfold tri, stmt_ok; auto).
    unfold d. repeat apply Forall_cons; auto; cbn [stmt_ok]; auto. }
  set (p := (strtof x, strtof x, strtof x)).
  assert (E : exists f1' f2', objects strtof f0 f1 fn get def d =
     Some [mk_object a [(f1', bm)] [mat]; mk_object b [(f2', def)] []]).
  { unfold objects, d, tri. cbn [steps step state0 st_v st_t st_n st_groups st_mat st_done st_cur new_object name_object object0 o_name o_faces o_mtls app].
    unfold material. rewrite K. cbn [in_dec]. cbn [steps step st_v st_t st_n st_groups st_mat st_done st_cur o_name o_faces o_mtls app].
    destruct a as [| a0 a]; [exfalso; now apply Wa |]. destruct b as [| b0 b]; [exfalso; now apply Wb |].
    eexists _, _. cbn. reflexivity. }
  destruct E as (t1 & t2 & E).
  destruct (obj_load_correct strtof f0 f1 fn get def d _ bs (2 * length (show_doc d) + 2) O E) as (rs & El & Fr); auto.
  { repeat constructor; cbn; lia. }
  cbn [until_empty o_faces is_empty] in Fr. inversion Fr as [| r1 o1 ra oa (S1 & S2 & S3 & S4) Fr']. subst.
  inversion Fr' as [| r2 o2 rb ob (T1 & T2 & T3 & T4) Fr'']. subst. inversion Fr''. subst.
  eexists _, r1, r2. split; [exact El |]. split; [apply (S4 0%nat (t1, bm) eq_refl) | apply (T4 0%nat (t2, def) eq_refl)].
Qed.
Print Assumptions obj_material_persists_refuted.

(* ---- C36 ---- *)

(* Whatever the materials of a mesh and the material of each face: the compacted list
   gives each face the material it had, and contains no other material and no null
   pointer. *)
Theorem obj_compaction : forall B (mats : list B) assoc,
  Forall (fun a => a < 256 /\ (N.to_nat a < length mats)%nat) assoc ->
  exists mats' assoc', compact mats assoc = Ok (mats', assoc') /\ length assoc' = length assoc /\
    (forall i a, nth_error assoc i = Some a -> get_material mats' assoc' i = Ok (nth_error mats (N.to_nat a))) /\
    (forall m, In m mats' -> exists a b, In a assoc /\ m = Some b /\ nth_error mats (N.to_nat a) = Some b) /\
    (length mats' <= Nat.min 256 (length mats))%nat.
Proof.
  intros B mats assoc H. destruct (compact_ok B mats assoc H) as (m & a & H1 & H2 & H3 & H4 & H5 & _). exists m, a. auto.
Qed.
Print Assumptions obj_compaction.

Example obj_compaction_ex : compact [100; 101; 102; 103; 104] [3; 3; 1; 4; 1; 3] = Ok ([Some 103; Some 101; Some 104], [0; 0; 1; 2; 1; 0]).
Proof. reflexivity. Qed.

(* With 256 materials in use the number of materials is reported as 0, and all 256 are
   written to an array of that size; with a 257th, its faces get the default material. *)
Theorem obj_materials_256_refuted : forall F B ret name assoc (m : mesh (tri (F := F))) (mats : list (option B)),
  length mats = 256%nat -> keep_mesh (mk_result ret name mats assoc m) = UB.
Proof. intros F B ret name assoc m mats H. unfold keep_mesh. cbn [r_mats]. rewrite H. reflexivity. Qed.
Print Assumptions obj_materials_256_refuted.

Theorem obj_materials_257_refuted : forall F B (get : list N -> option B) (l : locals (F := F)) name b,
  length (l_mats l) = 256%nat -> find (fun e => str_eqb (fst e) name) (l_used l) = None -> get name = Some b ->
  let l' := use_material get l name in
  l_current l' = 0 /\ nth_error (l_mats l') (N.to_nat (l_current l')) = nth_error (l_mats l) 0 /\ In b (l_mats l').
Proof.
  intros F B get l name b H Hf Hg l'. unfold l', use_material. rewrite Hf, Hg, H. cbn [l_current l_mats with_material].
  change (u8 (N.of_nat 256)) with 0. split; [reflexivity |]. split; [| apply in_app_iff; right; now left].
  destruct (l_mats l); [discriminate | reflexivity].
Qed.
Print Assumptions obj_materials_257_refuted.

(* ---- C57: the information about another file ---- *)

(* "Every information about other files is dropped" (parser_obj.hpp:63): after a first
   file with three vertices, a second one without any vertex gives a triangle of those
   of the first. *)
Theorem obj_second_file_refuted : forall F B (strtof : list N -> F) f0 f1 fn (get : list N -> option B) def a b c (old : parser src),
  p_vertices old = [a; b; c] ->
  let text := show (SF [mk_corner 1 None None; mk_corner 2 None None; mk_corner 3 None None]) in
  let n := fn a b c in
  exists r, load strtof f0 f1 fn get def (buffered 4096 100) 100 100 (start_parsing (Some old) (open_text 4096 text)) = Ok (Some [r]) /\
    ms_tris (r_mesh r) = [(mk_vertex a n (f0, f0), mk_vertex b n (f1, f0), mk_vertex c n (f1, f1))].
Proof.
  intros F B strtof f0 f1 fn get def a b c old H text n. unfold start_parsing. rewrite H. eexists. split; [vm_compute; reflexivity |].
  reflexivity.
Qed.
Print Assumptions obj_second_file_refuted.

(* ---- C58: corners with a texture coordinate and no normal ---- *)

(* The corner v/t after a corner v'/t'/n' whose first two numbers take as many
   characters: it gets the normal n' of that one instead of none. *)
Theorem obj_texture_only_refuted : forall v t v' t' n' m, int_range v -> int_range t -> int_range n' ->
  (length (show_int v) + length (show_int t) = length (show_int v') + length (show_int t'))%nat ->
  face_indices (store (show_corner (mk_corner v (Some t) None)) (store (show_corner (mk_corner v' (Some t') (Some n'))) m)) = Ok (v, t, n').
Proof.
  intros v t v' t' n' m Rv Rt Rn L. unfold face_indices, store, show_corner. cbn [c_v c_t c_n].
  set (tail0 := skipn (S (length (show_int v' ++ [47] ++ show_int t' ++ [47] ++ show_int n'))) m). clearbody tail0.
  assert (E : map Some (show_int v ++ [47] ++ show_int t) ++ Some 0 ::
      skipn (S (length (show_int v ++ [47] ++ show_int t)))
        (map Some (show_int v' ++ [47] ++ show_int t' ++ [47] ++ show_int n') ++ Some 0 :: tail0)
      = map Some (show_int v) ++ Some 47 :: map Some (show_int t) ++ Some 0 :: map Some (show_int n') ++ Some 0 :: tail0).
  { assert (S1 : skipn (S (length (show_int v ++ [47] ++ show_int t)))
        (map Some (show_int v' ++ [47] ++ show_int t' ++ [47] ++ show_int n') ++ Some 0 :: tail0) = map Some (show_int n') ++ Some 0 :: tail0).
    { replace (map Some (show_int v' ++ [47] ++ show_int t' ++ [47] ++ show_int n') ++ Some 0 :: tail0)
        with (map Some (show_int v' ++ [47] ++ show_int t' ++ [47]) ++ map Some (show_int n') ++ Some 0 :: tail0).
      2: { rewrite !map_app, <- !app_assoc. reflexivity. }
      replace (S (length (show_int v ++ [47] ++ show_int t))) with (length (map Some (show_int v' ++ [47] ++ show_int t' ++ [47]))).
      2: { rewrite map_length, !app_length. cbn [length]. lia. }
      apply skipn_here. }
    rewrite S1, !map_app, <- !app_assoc. reflexivity. }
  rewrite E. clear E. rewrite (strtol_show0 v 47) by (auto; reflexivity). cbn [bind].
  pose proof (mget_here (map Some (show_int v)) 47) as M. rewrite map_length in M. rewrite M. cbn [bind]. change (47 =? 0) with false. cbn match.
  set (pre := map Some (show_int v) ++ [Some 47]).
  replace (map Some (show_int v) ++ Some 47 :: map Some (show_int t) ++ Some 0 :: map Some (show_int n') ++ Some 0 :: tail0)
    with (pre ++ map Some (show_int t) ++ Some 0 :: map Some (show_int n') ++ Some 0 :: tail0) by (unfold pre; rewrite <- app_assoc; reflexivity).
  assert (Lp : (length (show_int v) + 1)%nat = length pre) by (unfold pre; rewrite app_length, map_length; reflexivity). rewrite Lp.
  assert (NS : exists c, mget (pre ++ map Some (show_int t) ++ Some 0 :: map Some (show_int n') ++ Some 0 :: tail0) (length pre) = Ok c /\ c <> 47).
  { unfold show_int at 1. destruct (t <? 0)%Z.
    - exists 45. split; [apply mget_here | discriminate].
    - destruct (dec_spec (Z.to_N t)) as (D1 & D2 & _). destruct (dec (Z.to_N t)) as [| c ds]; [congruence |]. exists c.
      split; [apply mget_here |]. inversion_clear D1 as [| ? ? Dc Ds]. unfold is_digit in Dc. lia. }
  destruct NS as (c & -> & Nc). cbn [bind]. replace (c =? ch_slash) with false by (unfold ch_slash; lia).
  rewrite strtol_show by (auto; reflexivity). cbn [bind].
  set (pre2 := pre ++ map Some (show_int t) ++ [Some 0]).
  replace (pre ++ map Some (show_int t) ++ Some 0 :: map Some (show_int n') ++ Some 0 :: tail0)
    with (pre2 ++ map Some (show_int n') ++ Some 0 :: tail0) by (unfold pre2; rewrite <- !app_assoc; reflexivity).
  replace (length pre + length (show_int t) + 1)%nat with (length pre2) by (unfold pre2; rewrite !app_length, map_length; cbn [length]; lia).
  rewrite strtol_show by (auto; reflexivity). reflexivity.
Qed.
Print Assumptions obj_texture_only_refuted.

(* If nothing was stored there before, bytes that were never written are read. *)
Theorem obj_texture_only_unset_refuted : forall v t,
  int_range v -> int_range t -> (length (show_int v) + length (show_int t) <= 252)%nat ->
  face_indices (store (show_corner (mk_corner v (Some t) None)) fresh_token) = UB.
Proof.
  intros v t Rv Rt L. unfold face_indices, store, show_corner. cbn [c_v c_t c_n].
  assert (E : exists tail, skipn (S (length (show_int v ++ [47] ++ show_int t))) fresh_token = None :: tail).
  { assert (G : forall k j, skipn k (repeat (@None N) (k + S j)) = None :: repeat None j) by (induction k; cbn; auto).
    unfold fresh_token, token_size. rewrite app_length. cbn [app length].
    replace 255%nat with (S (length (show_int v) + S (length (show_int t))) + S (252 - (length (show_int v) + length (show_int t))))%nat by lia.
    rewrite G. eexists. reflexivity. }
  destruct E as (tail & ->).
  replace (map Some (show_int v ++ [47] ++ show_int t) ++ Some 0 :: None :: tail)
    with (map Some (show_int v) ++ Some 47 :: map Some (show_int t) ++ Some 0 :: None :: tail)
    by (rewrite !map_app, <- !app_assoc; reflexivity).
  rewrite (strtol_show0 v 47) by (auto; reflexivity). cbn [bind].
  pose proof (mget_here (map Some (show_int v)) 47) as M. rewrite map_length in M. rewrite M. cbn [bind]. change (47 =? 0) with false. cbn match.
  set (pre := map Some (show_int v) ++ [Some 47]).
  replace (map Some (show_int v) ++ Some 47 :: map Some (show_int t) ++ Some 0 :: None :: tail)
    with (pre ++ map Some (show_int t) ++ Some 0 :: None :: tail) by (unfold pre; rewrite <- app_assoc; reflexivity).
  assert (Lp : (length (show_int v) + 1)%nat = length pre) by (unfold pre; rewrite app_length, map_length; reflexivity). rewrite Lp.
  assert (NS : exists c, mget (pre ++ map Some (show_int t) ++ Some 0 :: None :: tail) (length pre) = Ok c /\ c <> 47).
  { unfold show_int at 1. destruct (t <? 0)%Z.
    - exists 45. split; [apply mget_here | discriminate].
    - destruct (dec_spec (Z.to_N t)) as (D1 & D2 & _). destruct (dec (Z.to_N t)) as [| c ds]; [congruence |]. exists c.
      split; [apply mget_here |]. inversion_clear D1 as [| ? ? Dc Ds]. unfold is_digit in Dc. lia. }
  destruct NS as (c & -> & Nc). cbn [bind]. replace (c =? ch_slash) with false by (unfold ch_slash; lia).
  rewrite strtol_show by (auto; reflexivity). cbn [bind].
  set (pre2 := pre ++ map Some (show_int t) ++ [Some 0]).
  replace (pre ++ map Some (show_int t) ++ Some 0 :: None :: tail)
    with (pre2 ++ None :: tail) by (unfold pre2; rewrite <- !app_assoc; reflexivity).
  replace (length pre + length (show_int t) + 1)%nat with (length pre2) by (unfold pre2; rewrite !app_length, map_length; cbn [length]; lia).
  unfold strtol. rewrite skipn_here. reflexivity.
Qed.
Print Assumptions obj_texture_only_unset_refuted.

(* f 1/2/34 5/6 : the second corner gets the normal 34 *)
Example obj_texture_only_ex :
  face_indices (store (show_corner (mk_corner 5 (Some 6%Z) None)) (store (show_corner (mk_corner 1 (Some 2%Z) (Some 34%Z))) fresh_token)) = Ok (5, 6, 34)%Z.
Proof. reflexivity. Qed.

(* ---- C59: malformed files ---- *)

(* A face of one or two vertices without normals: their third is read. *)
Theorem obj_short_face_refuted : forall F B (strtof : list N -> F) f0 f1 fn (get : list N -> option B) def,
  load_obj strtof f0 f1 fn get def 4096 100 (show_doc [SV [48] [48] [48]; SF [mk_corner 1 None None; mk_corner 1 None None]]) = UB.
Proof. intros. vm_compute. reflexivity. Qed.
Print Assumptions obj_short_face_refuted.

(* A relative index before the first vertex: an exception that nothing catches ends the
   program. *)
Theorem obj_relative_index_refuted : forall F B (strtof : list N -> F) f0 f1 fn (get : list N -> option B) def,
  load_obj strtof f0 f1 fn get def 4096 100 (show_doc [SV [48] [48] [48]; SF [mk_corner (-2) None None]]) = Ok None.
Proof. intros. vm_compute. reflexivity. Qed.
Print Assumptions obj_relative_index_refuted.
