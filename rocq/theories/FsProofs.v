(* Lemmas about file objects and the file system. *)
From Verif Require Import Common ArrayIO PathModel PathSpec PathProofs PathProps FsModel FsSpec.
Local Open Scope char_scope.
Local Open Scope list_scope.
Local Open Scope nat_scope.

(* ---- strings and paths ---- *)

Lemma os_pieces_app : forall c l, Forall (fun x => x <> slash) c -> os_pieces l <> [] ->
  os_pieces (c ++ l) = match os_pieces l with p :: ps => (c ++ p) :: ps | [] => [] end.
Proof.
  induction 1 as [| x c Hx _ IH]; intros N; cbn [app os_pieces].
  - destruct (os_pieces l); [contradiction | reflexivity].
  - destruct (Ascii.eqb_spec x slash) as [E | _]; [contradiction |]. rewrite (IH N).
    destruct (os_pieces l); [contradiction | reflexivity].
Qed.

Lemma os_pieces_ne : forall l, os_pieces l <> [].
Proof.
  induction l as [| c l IH]; cbn [os_pieces]; [discriminate |].
  destruct (c =? slash)%char; [discriminate |]. destruct (os_pieces l); [contradiction | discriminate].
Qed.

Lemma os_pieces_F : forall cs, Forall (Forall (fun x => x <> slash)) cs -> os_pieces (F cs) = [] :: cs.
Proof.
  induction 1 as [| c cs Hc _ IH]; [reflexivity |]. cbn [flat_map app os_pieces].
  rewrite Ascii.eqb_refl. rewrite os_pieces_app by (auto; apply os_pieces_ne). rewrite IH, app_nil_r. reflexivity.
Qed.

Lemma walk_name : forall at_ p, p <> [] -> p <> chars "." -> p <> chars ".." -> walk at_ p = at_ ++ [p].
Proof.
  intros at_ p A B C. unfold walk.
  destruct (list_eq_dec ascii_dec p []); [contradiction |].
  destruct (list_eq_dec ascii_dec p (chars ".")); [contradiction |].
  destruct (list_eq_dec ascii_dec p (chars "..")); [contradiction | reflexivity].
Qed.

Lemma walks : forall cs at_, Forall os_name cs -> fold_left walk cs at_ = at_ ++ cs.
Proof.
  induction cs as [| c cs IH]; intros at_ H; cbn [fold_left]; [now rewrite app_nil_r |].
  inversion_clear H as [| ? ? (A & B & C & _) Hs]. rewrite walk_name, IH by assumption. now rewrite <- app_assoc.
Qed.

Lemma os_noslash : forall cs, Forall os_name cs -> Forall (Forall (fun x => x <> slash)) cs.
Proof.
  intros cs H. eapply Forall_impl; [| exact H]. intros c (_ & _ & _ & Hc).
  eapply Forall_impl; [| exact Hc]. intros x [Hx _]. exact Hx.
Qed.

Lemma os_path_of : forall cs, Forall os_name cs -> os_path (path_of cs) = cs.
Proof.
  intros [| c cs] H; [reflexivity |]. rewrite path_of_F by discriminate. unfold os_path.
  rewrite os_pieces_F by now apply os_noslash. change (fold_left walk (c :: cs) [] = c :: cs).
  now rewrite walks.
Qed.

Lemma name_os : forall c, name c -> os_name c.
Proof.
  intros c (A & B & C & D). split; [| split; [| split]]; auto.
  eapply Forall_impl; [| exact D]. intros x [X Y]. split; [| exact Y]. intros ->. discriminate.
Qed.

Lemma names_os : forall cs, Forall name cs -> Forall os_name cs.
Proof. intros cs H. eapply Forall_impl; [| exact H]. apply name_os. Qed.

(* ---- lookups ---- *)

Lemma find_in : forall l p k, find_node l p = Some k -> In (p, k) l.
Proof.
  induction l as [| [q j] l IH]; intros p k; cbn [find_node]; [discriminate |].
  destruct (path_dec q p) as [-> | _]; [intros [= ->]; now left | intros H; right; auto].
Qed.

Lemma find_none : forall l p, find_node l p = None -> ~ In p (map fst l).
Proof.
  induction l as [| [q j] l IH]; intros p; cbn [find_node map fst]; [intros _ [] |].
  destruct (path_dec q p) as [-> | N]; [discriminate |]. intros H [E | I]; [contradiction | now apply (IH p)].
Qed.

Lemma in_find : forall l p k, NoDup (map fst l) -> In (p, k) l -> find_node l p = Some k.
Proof.
  induction l as [| [q j] l IH]; intros p k D I; cbn [find_node] in *; [destruct I |].
  cbn [map fst] in D. inversion_clear D as [| ? ? N D'].
  destruct I as [E | I].
  - injection E as -> ->. destruct (path_dec p p); [reflexivity | contradiction].
  - destruct (path_dec q p) as [-> | _]; [| now apply IH].
    exfalso. apply N. apply in_map_iff. exists (p, k). auto.
Qed.

Lemma node_cons : forall o p k q, p <> [] ->
  node (mk_os ((p, k) :: nodes o) (may o)) q = if path_dec p q then Some k else node o q.
Proof.
  intros o p k q N. unfold node. destruct q as [| c q].
  - destruct (path_dec p []); [contradiction | reflexivity].
  - reflexivity.
Qed.

Lemma node_in : forall o p k, p <> [] -> node o p = Some k -> In (p, k) (nodes o).
Proof. intros o [| c p] k N H; [contradiction |]. now apply find_in. Qed.

Lemma sane_up : forall o p c, sane o -> node o (p ++ [c]) <> None -> node o p = Some Folder.
Proof.
  intros o p c [_ S] H. destruct (node o (p ++ [c])) as [k |] eqn:E; [| contradiction].
  apply node_in in E; [| destruct p; discriminate]. destruct (S _ _ E) as (_ & _ & P).
  now rewrite removelast_last in P.
Qed.

Lemma sane_prefix : forall o p r, sane o -> node o (p ++ r) <> None -> node o p <> None.
Proof.
  intros o p r S. induction r as [| c r IH] using rev_ind; [now rewrite app_nil_r |].
  rewrite app_assoc. intros H. apply IH. rewrite (sane_up _ _ _ S H). discriminate.
Qed.

Lemma sane_add : forall o p c, sane o -> Forall os_name (p ++ [c]) -> node o p = Some Folder ->
  node o (p ++ [c]) = None -> sane (mk_os ((p ++ [c], Folder) :: nodes o) (may o)).
Proof.
  intros o p c [D S] N P M.
  assert (Q : p ++ [c] <> []) by (destruct p; discriminate).
  split.
  - cbn [nodes map fst]. constructor; [| exact D]. apply find_none.
    unfold node in M. destruct (p ++ [c]); [contradiction | exact M].
  - intros q k I. cbn [nodes] in I. rewrite node_cons by exact Q. destruct I as [E | I].
    + injection E as <- <-. split; [exact Q |]. split; [exact N |]. rewrite removelast_last.
      destruct (path_dec (p ++ [c]) p) as [_ | _]; [reflexivity | exact P].
    + destruct (S _ _ I) as (A & B & C). split; [exact A |]. split; [exact B |].
      destruct (path_dec (p ++ [c]) (removelast q)); [reflexivity | exact C].
Qed.

Lemma only_refl : forall p o, only_folders_on p o o.
Proof. intros p o. split; [reflexivity |]. split; [auto |]. intros q H G. contradiction. Qed.

Lemma only_trans : forall p a b c, only_folders_on p a b -> only_folders_on p b c -> only_folders_on p a c.
Proof.
  intros p a b c (M1 & K1 & N1) (M2 & K2 & N2). split; [congruence |]. split; [auto |].
  intros q H G. destruct (node b q) as [k |] eqn:E.
  - destruct (N1 q H) as [F1 W]; [congruence |]. split; [| exact W]. rewrite E in F1. injection F1 as ->. auto.
  - apply N2; auto.
Qed.

(* ---- the loop of mkdirs ---- *)

Fixpoint make (o : os) (a b : path) (st : option kind) (created : bool) : os * option kind * bool :=
  match b with
  | [] => (o, st, created)
  | c :: b =>
    let p := a ++ [c] in
    match node o p with
    | Some _ => make o p b st created
    | None =>
      let (r, o) := os_mkdir o (path_of p) in
      if r then make o p b (node o p) true else (o, node o p, false)
    end
  end.

Lemma mkdir_eq : forall o a c, Forall os_name (a ++ [c]) -> node o (a ++ [c]) = None ->
  os_mkdir o (path_of (a ++ [c])) =
  match node o a with
  | Some Folder => if may o a then (true, mk_os ((a ++ [c], Folder) :: nodes o) (may o)) else (false, o)
  | _ => (false, o)
  end.
Proof. intros o a c N M. unfold os_mkdir. rewrite os_path_of by exact N. rewrite M, removelast_last. reflexivity. Qed.

Lemma make_spec : forall b a o st created, sane o -> Forall os_name (a ++ b) -> node o a <> None ->
  let '(o', st', r) := make o a b st created in
  sane o' /\ only_folders_on (a ++ b) o o' /\
  ((node o (a ++ b) <> None /\ o' = o /\ st' = st /\ r = created) \/
   (node o (a ++ b) = None /\ st' = node o' (a ++ b) /\ (r = true <-> node o' (a ++ b) = Some Folder) /\
    (creatable o (a ++ b) -> r = true))).
Proof.
  induction b as [| c b IH]; intros a o st created S N E; cbn [make].
  - rewrite app_nil_r in *. split; [exact S |]. split; [apply only_refl |]. left. auto.
  - replace (a ++ c :: b) with ((a ++ [c]) ++ b) in * by now rewrite <- app_assoc.
    set (p := a ++ [c]) in *. destruct (node o p) as [k |] eqn:Ep.
    + specialize (IH p o st created S N). rewrite Ep in IH. apply IH. discriminate.
    + assert (Np : Forall os_name p) by (apply Forall_app in N; apply N).
      unfold p in Ep |- *. rewrite (mkdir_eq o a c Np Ep). fold p. fold p in Ep.
      assert (Z : forall o', sane o' -> node o' p = None -> node o' (p ++ b) = None).
      { intros o' S' H'. destruct (node o' (p ++ b)) as [k |] eqn:X; [| reflexivity].
        exfalso. apply (sane_prefix o' p b S'); [congruence | exact H']. }
      assert (FAIL : (node o a = Some Folder -> may o a = true -> False) ->
        sane o /\ only_folders_on (p ++ b) o o /\
        ((node o (p ++ b) <> None /\ o = o /\ node o p = st /\ false = created) \/
         (node o (p ++ b) = None /\ node o p = node o (p ++ b) /\ (false = true <-> node o (p ++ b) = Some Folder) /\
          (creatable o (p ++ b) -> false = true)))).
      { intros X. split; [exact S |]. split; [apply only_refl |]. right. rewrite (Z o S Ep).
        split; [reflexivity |]. split; [exact Ep |]. split; [split; discriminate |].
        intros C. exfalso. destruct (C a c b) as [[C1 | C1] C2]; [unfold p; now rewrite <- app_assoc | contradiction |].
        apply X; [exact C1 |]. apply C2. exact Ep. }
      destruct (node o a) as [[|] |] eqn:Ea; [| apply FAIL; discriminate | contradiction].
      destruct (may o a) eqn:Ma; [| apply FAIL; discriminate]. clear FAIL.
      set (o1 := mk_os ((p, Folder) :: nodes o) (may o)).
      assert (Q : p <> []) by (unfold p; destruct a; discriminate).
      assert (G : forall q, node o1 q = if path_dec p q then Some Folder else node o q) by (intros q; now apply node_cons).
      assert (G1 : node o1 p = Some Folder) by (rewrite G; destruct (path_dec p p); [reflexivity | contradiction]).
      assert (S1 : sane o1) by (apply sane_add; assumption).
      assert (O1 : only_folders_on (p ++ b) o o1).
      { split; [reflexivity |]. split.
        - intros q k H. rewrite G. destruct (path_dec p q) as [<- | _]; [congruence | exact H].
        - intros q H. rewrite G. destruct (path_dec p q) as [<- | _]; [| contradiction].
          intros _. split; [reflexivity |]. split; [exact Q |]. now exists b. }
      specialize (IH p o1 (node o1 p) true S1 N). rewrite G1 in IH. specialize (IH ltac:(discriminate)).
      rewrite G1. destruct (make o1 p b (Some Folder) true) as [[o' st'] r].
      destruct IH as (S' & O' & C). split; [exact S' |]. split; [now apply (only_trans _ _ o1) |].
      right. split; [now apply Z |]. destruct C as [(X & -> & -> & ->) | (X & Y & V & W)].
      * destruct b as [| d b].
        { rewrite app_nil_r in *. rewrite G1. split; [reflexivity |]. split; [tauto | reflexivity]. }
        exfalso. apply X. rewrite G. destruct (path_dec p (p ++ d :: b)) as [K | _]; [| now apply Z].
        apply (f_equal (@length (list ascii))) in K. rewrite app_length in K. cbn [length] in K. lia.
      * split; [exact Y |]. split; [exact V |]. intros C. apply W.
        intros q d r' Eq. destruct (C q d r' Eq) as [C1 C2]. rewrite !G. split.
        { destruct (path_dec p q); [now right | exact C1]. }
        destruct (path_dec p (q ++ [d])); [discriminate | exact C2].
Qed.

Lemma rd_app : forall (a : list ascii) x t, rd (a ++ x :: t) (Z.of_nat (length a)) = Ok x.
Proof. exact rd_at. Qed.

Lemma next_sep_ok : forall c pre t fuel len idx,
  length pre = S idx -> noslash c -> idx < len -> length c + 1 < fuel -> length pre + length c <= len ->
  ((exists t', t = slash :: t') \/ (exists t', t = nul :: t' /\ len = length pre + length c)) ->
  next_sep fuel (pre ++ c ++ t) len idx = Ok (length pre + length c).
Proof.
  induction c as [| y c IH]; intros pre t fuel len idx P N I Fu L T; (destruct fuel as [| fuel]; [cbn [length] in Fu; lia |]);
    cbn [next_sep]; destruct (Nat.ltb_spec idx len); try lia; rewrite <- P.
  - cbn [app length] in *. rewrite Nat.add_0_r in *. destruct T as [(t' & ->) | (t' & -> & E)]; rewrite rd_app; cbn [bind].
    + rewrite Ascii.eqb_refl. reflexivity.
    + change (nul =? slash)%char with false. cbn [bind]. destruct fuel as [| fuel]; [lia |]. cbn [next_sep].
      destruct (Nat.ltb_spec (length pre) len); [lia | reflexivity].
  - cbn [app]. rewrite rd_app. cbn [bind]. inversion_clear N as [| ? ? Ny Nc]. rewrite (nosep_slash y Ny).
    cbn [length] in *.
    replace (pre ++ y :: c ++ t) with ((pre ++ [y]) ++ c ++ t) by now rewrite <- app_assoc.
    rewrite (IH (pre ++ [y]) t fuel len (length pre)).
    + f_equal. rewrite app_length. cbn [length]. lia.
    + rewrite app_length. cbn [length]. lia.
    + exact Nc.
    + lia.
    + lia.
    + rewrite app_length. cbn [length]. lia.
    + destruct T as [T | (t' & E & L')]; [now left | right]. exists t'. split; [exact E |]. rewrite app_length. cbn [length]. lia.
Qed.

(* what the loop has before it: at the end of the path the NUL, else a slash *)
Definition rest (b : path) : list ascii := F b ++ [nul].

Lemma step_ok : forall o a c b st fuel idx created,
  Forall name (a ++ c :: b) ->
  idx = length (F a) \/ (a = [] /\ idx = 1) ->
  let cs := a ++ c :: b in let p := a ++ [c] in let len := length (F cs) in
  let done r o st created :=
    let m := F p ++ (match b with [] => [slash] | _ => rest b end) in
    if r : bool then mkdirs_loop fuel o m st len (length (F p)) created else Ok (o, m, st, false) in
  mkdirs_loop (S fuel) o (F cs ++ [nul]) st len idx created =
  match node o p with
  | Some _ => done true o st created
  | None => let (r, o) := os_mkdir o (path_of p) in done r o (node o p) true
  end.
Proof.
  intros o a c b st fuel idx created N I cs p len done.
  assert (Nc : name c) by (apply Forall_app in N; destruct N as [_ N]; now inversion N).
  assert (Nb : Forall name b) by (apply Forall_app in N; destruct N as [_ N]; now inversion N).
  assert (Np : Forall name p).
  { apply Forall_app in N. destruct N as [Na _]. unfold p. apply Forall_app. auto. }
  assert (Ec : cs = p ++ b) by (unfold cs, p; now rewrite <- app_assoc).
  assert (Lp : length (F p) = length (F a) + S (length c)) by (unfold p; apply length_F_snoc).
  assert (Lc : len = length (F p) + length (F b)) by (unfold len; now rewrite Ec, F_app, app_length).
  assert (C1 : 1 <= length c) by (destruct Nc as [Nc _]; destruct c; [contradiction | cbn [length]; lia]).
  assert (M : F cs ++ [nul] = F p ++ rest b) by (rewrite Ec, F_app; unfold rest; now rewrite <- app_assoc).
  assert (T : (exists t', rest b = slash :: t') \/ (exists t', rest b = nul :: t' /\ len = length (F p))).
  { unfold rest. destruct b as [| d b]; cbn [flat_map app]; [right | left; eauto]. exists []. split; [reflexivity |]. rewrite Lc. cbn [length flat_map]. lia. }
  cbn [mkdirs_loop].
  assert (Il : idx < len) by (destruct I as [-> | [-> ->]]; cbn [flat_map length] in *; lia).
  destruct (Nat.ltb_spec idx len); [| lia].
  assert (NS : next_sep (S len) (F cs ++ [nul]) len idx = Ok (length (F p))).
  { rewrite M. destruct I as [-> | [Ea ->]].
    - assert (E : F p ++ rest b = (F a ++ [slash]) ++ c ++ rest b).
      { unfold p. rewrite F_app. cbn [flat_map]. rewrite app_nil_r, <- !app_assoc. reflexivity. }
      rewrite E. rewrite next_sep_ok.
      + f_equal. rewrite app_length. cbn [length]. lia.
      + rewrite app_length. cbn [length]. lia.
      + now apply name_noslash.
      + lia.
      + lia.
      + rewrite app_length. cbn [length]. lia.
      + rewrite app_length. cbn [length]. destruct T as [T | (t' & T & L')]; [now left | right]. exists t'. split; [exact T | lia].
    - pose proof (name_noslash c Nc) as Hc. destruct c as [| y c]; [cbn [length] in C1; lia |].
      inversion_clear Hc as [| ? ? Hy Hc']. subst a. unfold p in *. cbn [app flat_map length] in *. rewrite app_nil_r in *. cbn [flat_map length] in Lp.
      change (slash :: y :: c ++ rest b) with ([slash; y] ++ c ++ rest b). rewrite next_sep_ok; auto; cbn [length] in *; lia. }
  rewrite NS. cbn [bind]. rewrite M. clear NS.
  assert (U : forall x t, upd (F p ++ x :: t) (Z.of_nat (length (F p))) nul = Ok (F p ++ nul :: t)) by (intros; apply upd_at).
  assert (CS : forall t, c_string (F p ++ nul :: t) 0 = Ok (path_of p)).
  { intros t. rewrite path_of_F by (unfold p; destruct a; discriminate).
    apply (c_string_ok [] (F p) t). now apply F_cstr. }
  assert (D : exists x t, rest b = x :: t /\ slash :: t = match b with [] => [slash] | _ => rest b end).
  { unfold rest. destruct b as [| d b]; cbn [flat_map app]; eauto. }
  destruct D as (x & t & D1 & D2). rewrite D1, U. cbn [bind]. rewrite CS. cbn [bind].
  unfold os_access, os_stat. rewrite os_path_of by now apply names_os.
  assert (W : upd (F p ++ nul :: t) (Z.of_nat (length (F p))) slash = Ok (F p ++ slash :: t)) by apply upd_at.
  destruct (node o p) as [k |] eqn:Ep.
  - rewrite W. cbn [bind]. unfold done. rewrite <- D2. reflexivity.
  - destruct (os_mkdir o (path_of p)) as [r o'] eqn:Em. rewrite W. cbn [bind]. unfold done. rewrite <- D2.
    destruct r; reflexivity.
Qed.

Lemma loop_end : forall o m st len created fuel, mkdirs_loop (S fuel) o m st len len created = Ok (o, m, st, created).
Proof. intros. cbn [mkdirs_loop]. destruct (Nat.ltb_spec len len); [lia | reflexivity]. Qed.

Lemma mkdirs_loop_ok : forall b a o st created fuel idx,
  Forall name (a ++ b) -> b <> [] -> length b < fuel ->
  idx = length (F a) \/ (a = [] /\ idx = 1) ->
  let '(o', st', r) := make o a b st created in
  exists m, mkdirs_loop fuel o (F (a ++ b) ++ [nul]) st (length (F (a ++ b))) idx created = Ok (o', m, st', r) /\
    exists x, m = F (a ++ b) ++ [x].
Proof.
  induction b as [| c b IH]; intros a o st created fuel idx N B Fu I; [contradiction |].
  destruct fuel as [| fuel]; [cbn [length] in Fu; lia |]. cbn [length] in Fu.
  rewrite (step_ok o a c b st fuel idx created N I). cbn [make].
  set (p := a ++ [c]) in *. set (tail := match b with [] => [slash] | _ => rest b end).
  assert (E : a ++ c :: b = p ++ b) by (unfold p; now rewrite <- app_assoc). rewrite E in *.
  assert (X : exists x, F p ++ tail = F (p ++ b) ++ [x]).
  { unfold tail, rest. rewrite F_app. destruct b as [| d b]; [exists slash; cbn [flat_map]; now rewrite app_nil_r | exists nul; now rewrite <- app_assoc]. }
  assert (GO : forall o st created,
    let '(o', st', r) := make o p b st created in
    exists m, mkdirs_loop fuel o (F p ++ tail) st (length (F (p ++ b))) (length (F p)) created = Ok (o', m, st', r) /\
      exists x, m = F (p ++ b) ++ [x]).
  { intros o1 st1 cr. destruct b as [| d b].
    - cbn [make]. rewrite app_nil_r. destruct fuel as [| fuel]; [lia |]. rewrite loop_end.
      eexists. split; [reflexivity |]. now exists slash.
    - specialize (IH p o1 st1 cr fuel (length (F p)) N ltac:(discriminate) ltac:(lia) (or_introl eq_refl)).
      unfold tail, rest. rewrite app_assoc, <- F_app. exact IH. }
  destruct (node o p) as [k |]; [apply GO |].
  destruct (os_mkdir o (path_of p)) as [[|] o1]; [apply GO |].
  eexists. split; [reflexivity | exact X].
Qed.
