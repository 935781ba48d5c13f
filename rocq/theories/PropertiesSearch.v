(** C50: search paths are expanded as documented, and files are found in the
    first directory that has them. *)

From Coq Require Import List Bool ZArith Lia Arith.
From Verif Require Import SearchModel SearchSpec SearchProofs.
Import ListNotations.
Open Scope Z_scope.

(** Expanding a path written as a row of pieces replaces each of them by what
    it stands for.  [fuel] is the number of turns the loop may take: it ends
    within one turn more than there are pieces.  (Partial: a path with a '%'
    that is not closed is not a row of pieces, see C50_expand_refuted.) *)
Theorem C50_expand_partial : forall env old default ps fuel,
  Forall proper_piece ps -> (List.length ps < fuel)%nat ->
  expand env old default fuel (concat (map write_piece ps))
  = Some (concat (map (meaning env old default) ps)).
Proof.
  intros env old default ps fuel F L.
  exact (expand_pieces env old default ps fuel [] [] F (fun c (I : In c []) => match I with end) L).
Qed.
Print Assumptions C50_expand_partial.

(** The paths which are rows of pieces are those with an even number of
    '%'. *)
Theorem C50_pieces : forall s,
  Nat.even (percents s) = true <->
  exists ps, s = concat (map write_piece ps) /\ Forall proper_piece ps.
Proof.
  intros s; split.
  - intros E; destruct (pieces_exist (List.length s) s (le_n _) E) as (ps & A & B & _); eauto.
  - intros (ps & -> & F); induction F as [|p ps P F IH]; [reflexivity|].
    cbn [map concat]; rewrite percents_app.
    assert (E : percents (write_piece p) = 0%nat \/ percents (write_piece p) = 2%nat).
    { destruct p as [t| | |v]; cbn [write_piece proper_piece] in *;
        [left; apply percents_none; tauto | left; reflexivity | left; reflexivity | right].
      cbn [app percents Z.eqb Pos.eqb]; rewrite percents_app, (percents_none v P); reflexivity. }
    destruct E as [-> | ->]; exact IH.
Qed.
Print Assumptions C50_pieces.

(** Full statement of the expansion: every path is expanded.  It is false: a
    path with an odd number of '%' keeps the loop turning for ever. *)
Theorem C50_expand_refuted : forall env old default s fuel,
  Nat.odd (percents s) = true -> expand env old default fuel s = None.
Proof. intros env old default s fuel H; exact (expand_odd env old default fuel s [] H). Qed.
Print Assumptions C50_expand_refuted.

(** A search path is cut into the directories it lists, and every string
    lists some directories. *)
Theorem C50_directories : forall s ds, Listed s ds -> directories s = ds.
Proof. intros s ds L; apply (tokens_listed s ds L); apply le_n. Qed.
Print Assumptions C50_directories.

Theorem C50_listed : forall s, exists ds, Listed s ds.
Proof. intros s; exact (listed_exists (List.length s) s (le_n _)). Qed.
Print Assumptions C50_listed.

(** A file is found in the first directory of the list which has it as a
    regular file.  (Partial: provided no directory of the list makes the
    examination fail.) *)
Theorem C50_find_partial : forall files f search ds p,
  Listed search ds -> f <> [] -> ~ named_directly f ->
  (forall d, In d ds -> files (inside d f) <> Unreadable) ->
  (find_file files f search = Found p <-> first_with files ds f p) /\
  (find_file files f search = Missing <-> forall d, In d ds -> files (inside d f) <> Regular).
Proof.
  intros files f search ds p L NE ND R.
  assert (Df : direct f = false).
  { destruct (direct f) eqn:E; [apply direct_spec in E; contradiction | reflexivity]. }
  pose proof (listed_nonempty _ _ L) as NL.
  unfold find_file; destruct f as [|c f]; [congruence|]; rewrite Df, (C50_directories _ _ L).
  set (g := c :: f) in *.
  assert (Other_ : forall d, In d ds -> files (inside d g) <> Regular -> files (path_join d g) = Other).
  { intros d I N; rewrite (join_inside d g (NL d I)); specialize (R d I).
    destruct (files (inside d g)); congruence. }
  split; split.
  - intros E; destruct (find_in_found _ _ _ _ E) as (bf & d & af & E1 & E2 & E3 & E4).
    exists bf, d, af; repeat split; auto.
    + rewrite E2; apply join_inside, NL; rewrite E1; apply in_or_app; right; left; reflexivity.
    + intros b I; rewrite <- join_inside; [rewrite (E4 b I); discriminate|].
      apply NL; rewrite E1; apply in_or_app; left; exact I.
  - intros (bf & d & af & E1 & E2 & E3 & E4).
    assert (Id : In d ds) by (rewrite E1; apply in_or_app; right; left; reflexivity).
    assert (Ej : p = path_join d g) by (rewrite join_inside by (apply NL; exact Id); exact E2).
    rewrite Ej in E3 |- *; rewrite E1; apply find_in_first; [|exact E3].
    intros b I; apply Other_; [rewrite E1; apply in_or_app; left; exact I | exact (E4 b I)].
  - intros E d I; rewrite find_in_missing in E.
    rewrite <- join_inside by (apply NL; exact I); rewrite (E d I); discriminate.
  - intros H; apply find_in_missing; intros d I; apply Other_; auto.
Qed.
Print Assumptions C50_find_partial.

(** A file named absolutely or from the current directory is the file of that
    name, whatever the search path. *)
Theorem C50_direct_partial : forall files f search,
  named_directly f -> files f <> Unreadable ->
  find_file files f search = (match files f with Regular => Found f | _ => Missing end).
Proof.
  intros files f search D R; pose proof D as D'; apply direct_spec in D'.
  unfold find_file; destruct f as [|c f]; [discriminate D'|]; rewrite D'.
  unfold is_regular_file; destruct (files (c :: f)); congruence.
Qed.
Print Assumptions C50_direct_partial.

(** Nothing is found under the empty name. *)
Theorem C50_empty : forall files search, find_file files [] search = Missing.
Proof. reflexivity. Qed.
Print Assumptions C50_empty.

(** A file looked for by a request is found in the search path of its kind,
    and else in the resource path: the search is that of the two lists one
    after the other.  (Partial: as C50_find_partial.) *)
Theorem C50_resource_partial : forall files option_of resource f name ds rs p,
  (match option_of name with Some s => Listed s ds | None => ds = [] end) ->
  (match option_of resource with Some s => Listed s rs | None => rs = [] end) ->
  f <> [] -> ~ named_directly f ->
  (forall d, In d (ds ++ rs) -> files (inside d f) <> Unreadable) ->
  (find_ri_file files option_of resource f name = Found p <-> first_with files (ds ++ rs) f p) /\
  (find_ri_file files option_of resource f name = Missing <->
   forall d, In d (ds ++ rs) -> files (inside d f) <> Regular).
Proof.
  intros files option_of resource f name ds rs p L1 L2 NE ND R.
  set (a := match option_of name with Some s => s | None => [] end).
  set (b := match option_of resource with Some s => s | None => [] end).
  assert (La : Listed a ds).
  { unfold a; destruct (option_of name); [exact L1 | subst ds; apply listed_none; intros c []]. }
  assert (Lb : Listed b rs).
  { unfold b; destruct (option_of resource); [exact L2 | subst rs; apply listed_none; intros c []]. }
  assert (Nil : directories [] = []) by reflexivity.
  assert (E : find_ri_file files option_of resource f name =
    match find_file files f a with Missing => find_file files f b | o => o end).
  { assert (Df : direct f = false).
    { destruct (direct f) eqn:E; [apply direct_spec in E; contradiction | reflexivity]. }
    assert (Z0 : find_file files f [] = Missing).
    { destruct f; [reflexivity|]; unfold find_file; rewrite Df; reflexivity. }
    unfold find_ri_file, a, b; destruct (option_of name), (option_of resource);
      rewrite ?Z0; try reflexivity; destruct (find_file files f l); rewrite ?Z0; reflexivity. }
  rewrite E; clear E.
  assert (Ra : forall d, In d ds -> files (inside d f) <> Unreadable)
    by (intros d I; apply R, in_or_app; left; exact I).
  assert (Rb : forall d, In d rs -> files (inside d f) <> Unreadable)
    by (intros d I; apply R, in_or_app; right; exact I).
  destruct (C50_find_partial files f b rs p Lb NE ND Rb) as (B1 & B2).
  assert (Dec : (exists q, first_with files ds f q /\ find_file files f a = Found q) \/
                ((forall d, In d ds -> files (inside d f) <> Regular) /\ find_file files f a = Missing)).
  { destruct (find_file files f a) as [q| |] eqn:Q.
    - left; exists q; split; [|reflexivity].
      apply (C50_find_partial files f a ds q La NE ND Ra); exact Q.
    - right; split; [|reflexivity].
      apply (C50_find_partial files f a ds p La NE ND Ra); exact Q.
    - exfalso; revert Q; unfold find_file; destruct f as [|c g]; [congruence|].
      destruct (direct (c :: g)) eqn:D; [apply direct_spec in D; contradiction|].
      rewrite (C50_directories _ _ La).
      pose proof (listed_nonempty _ _ La) as NL; clear - Ra NL.
      induction ds as [|d ds IH]; cbn [find_in]; [discriminate|].
      unfold is_regular_file; rewrite join_inside by (apply NL; left; reflexivity).
      specialize (Ra d (or_introl eq_refl)) as K.
      destruct (files (inside d (c :: g))); [discriminate| |congruence].
      apply IH; intros x I; [apply Ra | apply NL]; right; exact I. }
  destruct Dec as [(q & Fq & Eq)|(N & Eq)]; rewrite Eq.
  - destruct Fq as (bf & d & af & E1 & E2 & E3 & E4).
    assert (Fp : first_with files (ds ++ rs) f q).
    { exists bf, d, (af ++ rs); rewrite E1, <- app_assoc; auto. }
    split; split.
    + intros X; inversion X; subst; exact Fp.
    + intros (bf' & d' & af' & F1 & F2 & F3 & F4); f_equal.
      assert (K : forall (b1 b2 : list (list Z)) x y r1 r2, b1 ++ x :: r1 = b2 ++ y :: r2 ->
        files (inside x f) = Regular -> files (inside y f) = Regular ->
        (forall z, In z b1 -> files (inside z f) <> Regular) ->
        (forall z, In z b2 -> files (inside z f) <> Regular) -> x = y).
      { induction b1 as [|z b1 IH]; intros b2 x y r1 r2 X Rx Ry N1 N2.
        - destruct b2 as [|w b2]; inversion X; [reflexivity|].
          subst; destruct (N2 w (or_introl eq_refl) Rx).
        - destruct b2 as [|w b2]; inversion X; subst.
          + destruct (N1 y (or_introl eq_refl) Ry).
          + apply (IH b2 x y r1 r2); auto; intros u I; [apply N1 | apply N2]; right; exact I. }
      rewrite E2, F2; f_equal; rewrite E1, <- app_assoc in F1; cbn [app] in F1.
      rewrite E2 in E3; rewrite F2 in F3.
      exact (K bf bf' d d' (af ++ rs) af' F1 E3 F3 E4 F4).
    + discriminate.
    + intros H; exfalso; apply (H d); [|rewrite <- E2; exact E3].
      rewrite E1, <- app_assoc; apply in_or_app; right; left; reflexivity.
  - split.
    + rewrite B1; split.
      * intros (bf & d & af & E1 & E2 & E3 & E4); exists (ds ++ bf), d, af.
        repeat split; auto; [rewrite E1, app_assoc; reflexivity|].
        intros x I; apply in_app_or in I; destruct I as [I|I]; [exact (N x I) | exact (E4 x I)].
      * intros (bf & d & af & E1 & E2 & E3 & E4).
        assert (K : forall (l : list (list Z)) m bf, l ++ m = bf ++ d :: af ->
          (forall z, In z l -> files (inside z f) <> Regular) ->
          exists b', bf = l ++ b' /\ m = b' ++ d :: af).
        { rewrite E2 in E3; clear - E3; induction l as [|z l IH]; intros m bf X Nl.
          - exists bf; auto.
          - destruct bf as [|w bf]; inversion X; subst.
            + destruct (Nl d (or_introl eq_refl) E3).
            + destruct (IH m bf H1) as (b' & -> & ->); [intros u I; apply Nl; right; exact I|].
              exists b'; auto. }
        destruct (K ds rs bf E1 N) as (b' & Eb & Er).
        exists b', d, af; repeat split; auto.
        intros x I; apply E4; rewrite Eb; apply in_or_app; right; exact I.
    + rewrite B2; split.
      * intros H d I; apply in_app_or in I; destruct I as [I|I]; [exact (N d I) | exact (H d I)].
      * intros H d I; apply H, in_or_app; right; exact I.
Qed.
Print Assumptions C50_resource_partial.

(** Full statement of the search: directories that cannot be examined are
    passed over.  It is false: with the path "a:b", where "a" may not be
    read, the file "f" of the directory "b" is not found; the exception
    leaves the search. *)
Theorem C50_unreadable_refuted : exists files f search,
  Listed search [[97]; [98]] /\ files (inside [98] f) = Regular /\
  find_file files f search = Throws.
Proof.
  exists (fun p => match p with [97; _; _] => Unreadable | _ => Regular end), [102], [97; 58; 98].
  split; [|split; reflexivity].
  apply (listed_more [] [97] 58 [98] [[98]]); [intros c [] | | left; reflexivity|].
  - split; [discriminate|]; split; intros [E|[]]; discriminate E.
  - apply (listed_last [] [98]); [intros c []|].
    split; [discriminate|]; split; intros [E|[]]; discriminate E.
Qed.
Print Assumptions C50_unreadable_refuted.

(** *** A concrete case *)

(** "&:%HOME%/lib:@" with the old path "old", HOME = "/h" and the default
    path "d1;d2" gives "old:/h/lib:d1;d2", which lists four directories; the
    file "x" is found in the third. *)
Example C50_example :
  let env v := match v with [72; 79; 77; 69] => Some [47; 104] | _ => None end in
  let path := [38; 58; 37; 72; 79; 77; 69; 37; 47; 108; 105; 98; 58; 64] in
  let out := [111; 108; 100; 58; 47; 104; 47; 108; 105; 98; 58; 100; 49; 59; 100; 50] in
  expand env [111; 108; 100] [100; 49; 59; 100; 50] 6 path = Some out /\
  directories out = [[111; 108; 100]; [47; 104; 47; 108; 105; 98]; [100; 49]; [100; 50]] /\
  find_file (fun p => match p with 100 :: _ => Regular | _ => Other end) [120] out
  = Found [100; 49; 47; 120].
Proof. repeat split. Qed.

(** Separators around and between directories do not matter; a name that
    begins with a dot but is not "." or ".." is looked for in the path. *)
Example C50_separators :
  directories [58; 58; 97; 59; 58; 98; 58] = [[97]; [98]] /\
  direct [46; 104] = false /\ direct [46; 47; 104] = true /\ direct [46; 46; 47; 104] = true /\
  path_join [97; 47] [98] = [97; 47; 98] /\ path_join [97] [98] = [97; 47; 98].
Proof. repeat split. Qed.
