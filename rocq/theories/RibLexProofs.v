(** Proofs about the RIB lexer. *)

From Coq Require Import List Bool Arith ZArith Lia.
From Verif Require Import RibTokModel RibLexModel RibLexSpec.
Import ListNotations.
Open Scope Z_scope.

Section Pools.
  Context {A : Type}.

  Lemma put_length n (a : A) l : length (put n a l) = length l.
  Proof. revert n; induction l as [|b l IH]; intros [|n]; simpl; auto. Qed.
  Lemma nth_put n (a : A) l d : (n < length l)%nat -> nth n (put n a l) d = a.
  Proof. revert n; induction l as [|b l IH]; intros [|n] H; simpl in *; try lia; auto. apply IH. lia. Qed.
  Lemma nth_put_other n m (a : A) l d : m <> n -> nth m (put n a l) d = nth m l d.
  Proof. revert n m; induction l as [|b l IH]; intros [|n] [|m] H; simpl; auto; try congruence. Qed.
End Pools.

Definition pool_ok {A} (p : pool A) : Prop := (next A p <= length (bufs A p))%nat.
Definition keeps_pool {A} (p q : pool A) : Prop :=
  (next A p <= next A q)%nat /\ forall i, (i < next A p)%nat -> nth i (bufs A q) [] = nth i (bufs A p) [].

Lemma keeps_refl {A} (p : pool A) : keeps_pool p p.
Proof. split; auto. Qed.
Lemma keeps_trans {A} (p q r : pool A) : keeps_pool p q -> keeps_pool q r -> keeps_pool p r.
Proof.
  intros [a b] [c d]. split; [lia|]. intros i H. rewrite d by lia. apply b, H.
Qed.

Lemma get_buf_ok {A} (p : pool A) : pool_ok p ->
  fst (get_buf p) = next A p /\ next A (snd (get_buf p)) = S (next A p) /\
  (next A p < length (bufs A (snd (get_buf p))))%nat /\ pool_ok (snd (get_buf p)) /\ keeps_pool p (snd (get_buf p)).
Proof.
  unfold pool_ok, keeps_pool, get_buf. intros H. cbn [fst snd next bufs].
  destruct (Nat.leb_spec (length (bufs A p)) (next A p)) as [Q|Q]; rewrite put_length, ?app_length; cbn [length].
  - repeat split; try lia. intros i Hi. rewrite nth_put_other by lia. apply app_nth1. lia.
  - repeat split; try lia. intros i Hi. apply nth_put_other. lia.
Qed.

Lemma fill_ok {A} n l (p : pool A) : pool_ok p -> pool_ok (fill n l p) /\ next A (fill n l p) = next A p.
Proof. unfold pool_ok, fill. cbn [next bufs]. rewrite put_length. auto. Qed.

Lemma fill_get {A} l (p : pool A) : pool_ok p ->
  let q := fill (fst (get_buf p)) l (snd (get_buf p)) in
  pool_ok q /\ keeps_pool p q /\ (fst (get_buf p) < next A q)%nat /\ nth (fst (get_buf p)) (bufs A q) [] = l.
Proof.
  intros H q. destruct (get_buf_ok p H) as (a & b & c & d & e & f).
  destruct (fill_ok (fst (get_buf p)) l _ d) as [g h]. fold q in g, h. split; [exact g|]. split; [split|split].
  - rewrite h. lia.
  - intros i Hi. unfold q, fill. cbn [bufs]. rewrite nth_put_other by lia. apply f, Hi.
  - rewrite h, a. lia.
  - unfold q, fill. cbn [bufs]. apply nth_put. lia.
Qed.

Lemma fill_keeps {A} n l (p : pool A) q : (n = next A q) -> keeps_pool q p -> keeps_pool q (fill n l p).
Proof.
  intros E [a b]. split; [exact a|]. intros i Hi. unfold fill. cbn [bufs]. rewrite nth_put_other by lia. apply b, Hi.
Qed.

Section Lexer.
  Variable F : Type.
  Variable of_int : Z -> F.
  Local Notation token := (token F).
  Local Notation lexer := (lexer F).
  Local Notation Eof := (TEof F).
  Local Notation ahead := (ahead F).
  Local Notation read := (read F of_int).
  Local Notation starts_with := (starts_with F of_int).
  Local Notation spells := (spells F of_int).
  Local Notation number := (number F of_int).

  Lemma get_ahead x : tok_get F x = (hd Eof (ahead x), with_input F x (tl (ahead x)) (hd Eof (ahead x)) false).
  Proof. unfold tok_get, RibLexSpec.ahead. destruct (have F x); reflexivity. Qed.
  Lemma peek_ahead x : tok_peek F x = (hd Eof (ahead x), with_input F x (tl (ahead x)) (hd Eof (ahead x)) true).
  Proof. unfold tok_peek, RibLexSpec.ahead. destruct x as [s t [] a b c d]; reflexivity. Qed.
  Lemma ahead_peek x : ahead (snd (tok_peek F x)) = hd Eof (ahead x) :: tl (ahead x).
  Proof. rewrite peek_ahead. reflexivity. Qed.

  (** States reached from a new lexer. *)
  Definition lexer_ok (x : lexer) : Prop :=
    pool_ok (strings F x) /\ pool_ok (floats F x) /\ pool_ok (ints F x) /\ pool_ok (arrays F x).
  (** Buffers handed out are kept. *)
  Definition keeps (x y : lexer) : Prop :=
    keeps_pool (strings F x) (strings F y) /\ keeps_pool (floats F x) (floats F y) /\
    keeps_pool (ints F x) (ints F y) /\ keeps_pool (arrays F x) (arrays F y).
  Lemma keeps_all_refl x : keeps x x.
  Proof. repeat split; auto. Qed.
  Lemma keeps_all_trans x y z : keeps x y -> keeps y z -> keeps x z.
  Proof. intros (a & b & c & d) (e & f & g & h). repeat split; eapply keeps_trans; eassumption. Qed.

  Definition handed_out (x : lexer) (r : ref F) : Prop :=
    match r with
    | RInt _ _ | RFloat _ _ => True
    | RString _ n => (n < next _ (strings F x))%nat
    | RInts _ (Some n) => (n < next _ (ints F x))%nat
    | RFloats _ (Some n) => (n < next _ (floats F x))%nat
    | RStrings _ (Some n) => (n < next _ (arrays F x))%nat
    | _ => True
    end.
  Lemma keeps_deref x y r : keeps x y -> handed_out x r -> deref F y r = deref F x r /\ handed_out y r.
  Proof.
    intros ((a1 & a2) & (b1 & b2) & (c1 & c2) & (d1 & d2)) H.
    destruct r as [i|f|n|[n|]|[n|]|[n|]]; cbn in *; split; auto; try lia.
    - rewrite a2 by exact H. reflexivity.
    - rewrite c2 by exact H. reflexivity.
    - rewrite b2 by exact H. reflexivity.
    - rewrite d2 by exact H. reflexivity.
  Qed.

  (** Loop over elements. *)
  Lemma elements_spec {A} (take : token -> option A) l : forall acc,
    exists ts vs, Forall2 (fun t v => take t = Some v) ts vs /\
    ((l = ts /\ elements F take acc l = (acc ++ vs, Eof, [])) \/
     (exists t r, l = ts ++ t :: r /\ take t = None /\ elements F take acc l = (acc ++ vs, t, r))).
  Proof.
    induction l as [|t l IH]; intros acc.
    - exists [], []. split; [constructor|]. left. rewrite app_nil_r. split; reflexivity.
    - cbn [elements]. destruct (take t) as [a|] eqn:E.
      + destruct (IH (acc ++ [a])) as (ts & vs & T & D). exists (t :: ts), (a :: vs). split; [constructor; assumption|].
        rewrite <- app_assoc in D. cbn [app] in D.
        destruct D as [[-> D]|(t' & r & -> & N & D)]; [left; split; [reflexivity|exact D]|].
        right. exists t', r. split; [reflexivity|]. split; [exact N|exact D].
      + exists [], []. split; [constructor|]. right. exists t, l. rewrite app_nil_r. auto.
  Qed.
  Lemma elements_all {A} (take : token -> option A) ts vs t r :
    Forall2 (fun t v => take t = Some v) ts vs -> take t = None ->
    forall acc, elements F take acc (ts ++ t :: r) = (acc ++ vs, t, r).
  Proof.
    intros H N. induction H as [|u v ts vs E _ IH]; intros acc; cbn [app elements].
    - rewrite N, app_nil_r. reflexivity.
    - rewrite E, IH, <- app_assoc. reflexivity.
  Qed.

  Lemma take_ints ts vs : Forall2 (fun t v => take_int F t = Some v) ts vs <-> ts = map (TInteger F) vs.
  Proof.
    split.
    - induction 1 as [|t v ts vs E _ IH]; [reflexivity|]. destruct t; try discriminate. inversion E; subst. reflexivity.
    - intros ->. induction vs; constructor; auto.
  Qed.
  Lemma take_strings ts vs : Forall2 (fun t v => take_string F t = Some v) ts vs <-> ts = map (TString F) vs.
  Proof.
    split.
    - induction 1 as [|t v ts vs E _ IH]; [reflexivity|]. destruct t; try discriminate. inversion E; subst. reflexivity.
    - intros ->. induction vs; constructor; auto.
  Qed.
  Lemma take_number t f : take_float F of_int t = Some f <-> number t f.
  Proof.
    split.
    - destruct t; try discriminate; intros E; inversion E; subst; constructor.
    - intros H; destruct H; reflexivity.
  Qed.
  Lemma take_numbers ts fs : Forall2 (fun t v => take_float F of_int t = Some v) ts fs <-> Forall2 number ts fs.
  Proof. split; induction 1; constructor; auto; apply take_number; assumption. Qed.

  Lemma get_float_spec x : get_float F of_int x =
    match take_float F of_int (hd Eof (ahead x)) with
    | Some f => (Ok F (RFloat F f), with_input F x (tl (ahead x)) (hd Eof (ahead x)) false)
    | None => token_error F (hd Eof (ahead x)) (with_input F x (tl (ahead x)) (hd Eof (ahead x)) false)
    end.
  Proof. unfold get_float. rewrite get_ahead. destruct (hd Eof (ahead x)); reflexivity. Qed.

  Lemma cstr_id s : ~ In 0 s -> cstr s = s.
  Proof.
    induction s as [|c s IH]; intros H; [reflexivity|]. cbn [cstr]. destruct (Z.eqb_spec c 0) as [->|N].
    - destruct H. left. reflexivity.
    - f_equal. apply IH. intros I. apply H. right. exact I.
  Qed.

  Lemma nth_array {A} (l : list A) n (p : pool A) : nth n (bufs A p) [] = l -> buf (to_array l n) p = l.
  Proof. destruct l; auto. Qed.

  Lemma map_cstr (l : list (list Z)) : (forall s, In s l -> ~ In 0 s) -> map cstr l = l.
  Proof.
    intros H. rewrite <- (map_id l) at 2. apply map_ext_in. intros s I. apply cstr_id, H, I.
  Qed.

  (** The effect of the plain loop. *)
  Lemma plain_spec ts fs : Forall2 number ts fs -> forall acc x r, ahead x = ts ++ r ->
    exists x', plain_floats F of_int (length fs) acc x = (Some (acc ++ fs), acc ++ fs, x') /\
      ahead x' = r /\ floats F x' = floats F x.
  Proof.
    induction 1 as [|t f ts fs N _ IH]; intros acc x r E.
    - exists x. cbn. rewrite app_nil_r. auto.
    - cbn [length plain_floats]. rewrite get_float_spec, E. cbn [app hd tl]. apply take_number in N. rewrite N.
      destruct (IH (acc ++ [f]) (with_input F x (ts ++ r) t false) r eq_refl) as (x' & P & Q & R).
      exists x'. rewrite P, <- app_assoc. auto.
  Qed.

  Lemma plain_inv n : forall acc x l a x', plain_floats F of_int n acc x = (Some l, a, x') ->
    exists ts fs, Forall2 number ts fs /\ length fs = n /\ ahead x = ts ++ ahead x'.
  Proof.
    induction n as [|n IH]; intros acc x l a x' E; cbn [plain_floats] in E.
    - inversion E; subst. exists [], []. repeat split; constructor.
    - rewrite get_float_spec in E. destruct (ahead x) as [|t r] eqn:A; cbn [hd tl] in E; [discriminate|].
      destruct (take_float F of_int t) as [f|] eqn:T.
      + apply IH in E as (ts & fs & P & L & Q). exists (t :: ts), (f :: fs). apply take_number in T.
        split; [constructor; assumption|]. split; [cbn; lia|]. cbn in Q. cbn. f_equal. exact Q.
      + destruct t; discriminate.
  Qed.

  Lemma fill_get' {A} (p q : pool A) n l : pool_ok p -> get_buf p = (n, q) ->
    pool_ok (fill n l q) /\ keeps_pool p (fill n l q) /\ (n < next A (fill n l q))%nat /\ nth n (bufs A (fill n l q)) [] = l.
  Proof. intros H E. pose proof (fill_get l p H) as X. rewrite E in X. exact X. Qed.

  Definition pools (x : lexer) := (strings F x, floats F x, ints F x, arrays F x).
  Lemma pools_with x l t h : pools (with_input F x l t h) = pools x.
  Proof. reflexivity. Qed.
  Lemma token_error_fails t x : fst (token_error F t x) = Failed F.
  Proof. destruct t; reflexivity. Qed.
  Lemma token_error_pools t x : pools (snd (token_error F t x)) = pools x.
  Proof. destruct t; reflexivity. Qed.
  Lemma plain_pools n : forall acc x, pools (snd (plain_floats F of_int n acc x)) = pools x.
  Proof.
    induction n as [|n IH]; intros acc x; cbn [plain_floats]; [reflexivity|].
    rewrite get_float_spec. destruct (take_float F of_int (hd Eof (ahead x))) as [f|].
    - rewrite IH. reflexivity.
    - destruct (hd Eof (ahead x)); reflexivity.
  Qed.

  Definition good (x : lexer) (p : outcome F * lexer) : Prop :=
    lexer_ok (snd p) /\ keeps x (snd p) /\ forall r, fst p = Ok F r -> handed_out (snd p) r.

  Lemma good_same x o y : lexer_ok x -> pools y = pools x -> (forall r, o = Ok F r -> handed_out y r) -> good x (o, y).
  Proof.
    intros H E R. unfold pools in E. inversion E as [[E1 E2 E3 E4]]. split; [|split; [|exact R]]; cbn [snd].
    - unfold lexer_ok. rewrite E1, E2, E3, E4. exact H.
    - unfold keeps. rewrite E1, E2, E3, E4. apply keeps_all_refl.
  Qed.
  Lemma good_error x t y : lexer_ok x -> pools y = pools x -> good x (token_error F t y).
  Proof.
    intros H E. rewrite (surjective_pairing (token_error F t y)). rewrite token_error_fails.
    apply good_same; [exact H|rewrite token_error_pools; exact E|discriminate].
  Qed.
  Lemma good_error' x t y : lexer_ok y -> keeps x y -> good x (token_error F t y).
  Proof.
    intros H K. destruct t; (split; [exact H|split; [exact K|discriminate]]).
  Qed.

  Ltac pools_solve :=
    repeat match goal with H : lexer_ok _ |- _ => destruct H as (? & ? & ? & ?) end;
    unfold good, lexer_ok, keeps; cbn;
    repeat split; auto using keeps_refl.

  Lemma good_int_array x : lexer_ok x -> good x (get_int_array F x).
  Proof.
    intros H. unfold get_int_array. rewrite get_ahead. destruct (hd Eof (ahead x)); try (apply good_error; auto; fail).
    cbn [ints with_input src]. destruct (get_buf (ints F x)) as [n q] eqn:G.
    destruct (elements F (take_int F) [] (tl (ahead x))) as [[l t'] r].
    destruct H as (H1 & H2 & H3 & H4). destruct (fill_get' _ _ _ l H3 G) as (a & b & c & d).
    assert (L : lexer_ok (with_ints F (with_input F (with_input F x (tl (ahead x)) (TArrayBegin F) false) r t' false) (fill n l q)))
      by (repeat split; assumption).
    assert (K : keeps x (with_ints F (with_input F (with_input F x (tl (ahead x)) (TArrayBegin F) false) r t' false) (fill n l q)))
      by (split; [apply keeps_refl|split; [apply keeps_refl|split; [exact b|apply keeps_refl]]]).
    destruct t'; try (apply good_error'; assumption).
    split; [exact L|]. split; [exact K|]. cbn [fst snd]. intros r' E. inversion E; subst. destruct l; cbn; [exact I|exact c].
  Qed.

  Lemma good_string_array x : lexer_ok x -> good x (get_string_array F x).
  Proof.
    intros H. unfold get_string_array. rewrite get_ahead. destruct (hd Eof (ahead x)); try (apply good_error; auto; fail).
    cbn [arrays with_input src]. destruct (get_buf (arrays F x)) as [n q] eqn:G.
    destruct (elements F (take_string F) [] (tl (ahead x))) as [[l t'] r].
    destruct H as (H1 & H2 & H3 & H4). destruct (fill_get' _ _ _ l H4 G) as (a & b & c & d).
    assert (L : lexer_ok (with_arrays F (with_input F (with_input F x (tl (ahead x)) (TArrayBegin F) false) r t' false) (fill n l q)))
      by (repeat split; assumption).
    assert (K : keeps x (with_arrays F (with_input F (with_input F x (tl (ahead x)) (TArrayBegin F) false) r t' false) (fill n l q)))
      by (split; [apply keeps_refl|split; [apply keeps_refl|split; [apply keeps_refl|exact b]]]).
    destruct t'; try (apply good_error'; assumption).
    split; [exact L|]. split; [exact K|]. cbn [fst snd]. intros r' E. inversion E; subst. destruct l; cbn; [exact I|exact c].
  Qed.

  Lemma good_float_array len x : lexer_ok x -> good x (get_float_array F of_int len x).
  Proof.
    intros H. unfold get_float_array. destruct (get_buf (floats F x)) as [n q] eqn:G.
    destruct H as (H1 & H2 & H3 & H4).
    assert (K : forall l y, pools y = (strings F x, fill n l q, ints F x, arrays F x) -> lexer_ok y /\ keeps x y).
    { intros l y E. unfold pools in E. inversion E as [[E1 E2 E3 E4]]. destruct (fill_get' _ _ _ l H2 G) as (a & b & c & d).
      unfold lexer_ok, keeps. rewrite E1, E2, E3, E4. repeat split; auto; try apply b; apply keeps_refl. }
    assert (K0 : forall y, pools y = (strings F x, q, ints F x, arrays F x) -> lexer_ok y /\ keeps x y).
    { intros y E. unfold pools in E. inversion E as [[E1 E2 E3 E4]]. destruct (get_buf_ok _ H2) as (a & b & c & d & e).
      rewrite G in *. cbn [fst snd] in *.
      unfold lexer_ok, keeps. rewrite E1, E2, E3, E4. repeat split; auto; try apply e; apply keeps_refl. }
    rewrite peek_ahead. set (y := with_input F _ _ _ true).
    assert (Ey : pools y = (strings F x, q, ints F x, arrays F x)) by reflexivity. clearbody y.
    assert (T : good x (if 0 <=? len then
          match plain_floats F of_int (Z.to_nat len) [] y with
          | (res, l, x2) =>
              let x3 := with_floats F x2 (fill n l (floats F x2)) in
              match res with Some _ => (Ok F (RFloats F (to_array l n)), x3) | None => (Failed F, x3) end
          end
        else let (t', x2) := tok_get F y in token_error F t' x2)).
    { destruct (0 <=? len).
      - pose proof (plain_pools (Z.to_nat len) [] y) as P.
        destruct (plain_floats F of_int (Z.to_nat len) [] y) as [[res l] x2]. cbn [snd] in P. rewrite Ey in P.
        assert (P3 : pools (with_floats F x2 (fill n l (floats F x2))) = (strings F x, fill n l q, ints F x, arrays F x)).
        { unfold pools in *. inversion P as [[E1 E2 E3 E4]]. cbn. rewrite E1, E2, E3, E4. reflexivity. }
        destruct (K _ _ P3) as [L KK].
        destruct res; (split; [exact L|split; [exact KK|]]); [|discriminate].
        intros r E. inversion E; subst. destruct (fill_get' _ _ _ l H2 G) as (a & b & c & d).
        destruct l as [|f l]; [exact I|]. cbn [to_array handed_out snd]. pose proof (f_equal (fun p => snd (fst (fst p))) P3) as E2. cbn [fst snd pools] in E2. rewrite E2. exact c.
      - rewrite get_ahead. apply good_error'; apply K0; exact Ey. }
    destruct (hd Eof (RibLexSpec.ahead F (with_floats F x q))); try exact T.
    clear T. rewrite get_ahead. destruct (elements F (take_float F of_int) [] _) as [[l t'] r].
    set (z := with_floats F _ _).
    assert (Ez : pools z = (strings F x, fill n l q, ints F x, arrays F x)).
    { unfold pools in *. inversion Ey as [[E1 E2 E3 E4]]. cbn. rewrite E1, E2, E3, E4. reflexivity. }
    clearbody z. destruct (K _ _ Ez) as [L KK].
    destruct t'; try (apply good_error'; assumption).
    destruct ((0 <=? len) && negb (Z.of_nat (length l) =? len)); (split; [exact L|split; [exact KK|]]); [discriminate|].
    intros r' E. inversion E; subst. destruct (fill_get' _ _ _ l H2 G) as (a & b & c & d).
    destruct l as [|f l]; [exact I|]. cbn [to_array handed_out snd]. pose proof (f_equal (fun p => snd (fst (fst p))) Ez) as E2. cbn [fst snd pools] in E2. rewrite E2. exact c.
  Qed.

  Lemma good_store s x : lexer_ok x -> good x (store_string F s x).
  Proof.
    intros (H1 & H2 & H3 & H4). unfold store_string. destruct (get_buf (strings F x)) as [n q] eqn:G.
    destruct (fill_get' _ _ _ s H1 G) as (a & b & c & d).
    split; [repeat split; assumption|]. split.
    - split; [exact b|]. repeat split; try apply keeps_refl; auto.
    - intros r E. inversion E; subst. exact c.
  Qed.

  Lemma good_trans x y p : pools y = pools x -> good y p -> good x p.
  Proof.
    intros E (a & b & c). split; [exact a|split; [|exact c]].
    unfold pools in E. inversion E as [[E1 E2 E3 E4]]. unfold keeps in *. rewrite <- E1, <- E2, <- E3, <- E4. exact b.
  Qed.
  Lemma lexer_ok_same x y : pools y = pools x -> lexer_ok x -> lexer_ok y.
  Proof. intros E H. unfold pools in E. inversion E as [[E1 E2 E3 E4]]. unfold lexer_ok. rewrite E1, E2, E3, E4. exact H. Qed.

  Lemma read_good k x : lexer_ok x -> good x (read k x).
  Proof.
    intros H. destruct k; cbn [RibLexModel.read].
    - unfold get_int. rewrite get_ahead. destruct (hd Eof (ahead x)); try (apply good_error; auto; fail).
      apply good_same; auto. intros r E. inversion E. exact I.
    - rewrite get_float_spec. destruct (take_float F of_int (hd Eof (ahead x))).
      + apply good_same; auto. intros r E. inversion E. exact I.
      + apply good_error; auto.
    - unfold get_string. rewrite get_ahead. destruct (hd Eof (ahead x)); try (apply good_error; auto; fail).
      eapply good_trans; [|apply good_store]; [reflexivity|]. exact H.
    - apply good_int_array, H.
    - apply good_float_array, H.
    - apply good_string_array, H.
    - unfold get_int_param. rewrite peek_ahead. set (y := with_input F _ _ _ true).
      assert (Y : good x (get_int_array F y)) by (apply (good_trans x y); [reflexivity|apply good_int_array; exact H]).
      destruct (hd Eof (ahead x)); try exact Y. destruct H as (H1 & H2 & H3 & H4).
      destruct (get_buf (ints F y)) as [n q] eqn:G. rewrite get_ahead.
      destruct (fill_get' _ _ _ [i] H3 G) as (a & b & c & d).
      split; [repeat split; assumption|]. split; [|intros r E; inversion E; subst; exact c].
      repeat split; try apply keeps_refl; try apply b; auto.
    - unfold get_float_param. rewrite peek_ahead. set (y := with_input F _ _ _ true).
      assert (Y : good x (get_float_array F of_int (-1) y)) by (apply (good_trans x y); [reflexivity|apply good_float_array; exact H]).
      assert (One : forall f, good x (let (n, p) := get_buf (floats F y) in
        let (_, x2) := tok_get F y in (Ok F (RFloats F (Some n)), with_floats F x2 (fill n [f] p)))).
      { intros f. destruct H as (H1 & H2 & H3 & H4).
        destruct (get_buf (floats F y)) as [n q] eqn:G. rewrite get_ahead.
        destruct (fill_get' _ _ _ [f] H2 G) as (a & b & c & d).
        split; [repeat split; assumption|]. split; [|intros r E; inversion E; subst; exact c].
        repeat split; try apply keeps_refl; try apply b; auto. }
      destruct (hd Eof (ahead x)); try exact Y; apply One.
    - unfold get_string_param. rewrite peek_ahead. set (y := with_input F _ _ _ true).
      assert (Y : good x (get_string_array F y)) by (apply (good_trans x y); [reflexivity|apply good_string_array; exact H]).
      destruct (hd Eof (ahead x)); try exact Y. destruct H as (H1 & H2 & H3 & H4).
      destruct (get_buf (arrays F y)) as [n q] eqn:G. rewrite get_ahead.
      destruct (fill_get' _ _ _ [s] H4 G) as (a & b & c & d).
      split; [repeat split; assumption|]. split; [|intros r E; inversion E; subst; exact c].
      repeat split; try apply keeps_refl; try apply b; auto.
  Qed.

  (** * Values *)

  Local Notation same_stream := (same_stream F).
  Lemma same_refl l : same_stream l l.
  Proof. intros n. reflexivity. Qed.

  Lemma hd_app t ts r : hd Eof ((t :: ts) ++ r) = t.
  Proof. reflexivity. Qed.

  Lemma int_array_value x l r : lexer_ok x -> ahead x = bracket F (map (TInteger F) l) ++ r ->
    exists y, get_int_array F x = (Ok F (RInts F (to_array l (fst (get_buf (ints F x))))), y) /\
      ahead y = r /\ nth (fst (get_buf (ints F x))) (bufs _ (ints F y)) [] = l.
  Proof.
    intros H E. unfold bracket in E. cbn [app] in E. rewrite <- app_assoc in E. cbn [app] in E.
    unfold get_int_array. rewrite get_ahead, E. cbn [hd tl]. cbn [ints with_input src].
    destruct (get_buf (ints F x)) as [n q] eqn:G. cbn [fst].
    rewrite (elements_all (take_int F) (map (TInteger F) l) l (TArrayEnd F) r); [|apply take_ints; reflexivity|reflexivity].
    cbn [app]. eexists. split; [reflexivity|]. split; [reflexivity|].
    destruct H as (H1 & H2 & H3 & H4). apply (fill_get' _ _ _ l H3 G).
  Qed.
  Lemma string_array_value x l r : lexer_ok x -> ahead x = bracket F (map (TString F) l) ++ r ->
    exists y, get_string_array F x = (Ok F (RStrings F (to_array l (fst (get_buf (arrays F x))))), y) /\
      ahead y = r /\ nth (fst (get_buf (arrays F x))) (bufs _ (arrays F y)) [] = l.
  Proof.
    intros H E. unfold bracket in E. cbn [app] in E. rewrite <- app_assoc in E. cbn [app] in E.
    unfold get_string_array. rewrite get_ahead, E. cbn [hd tl]. cbn [arrays with_input src].
    destruct (get_buf (arrays F x)) as [n q] eqn:G. cbn [fst].
    rewrite (elements_all (take_string F) (map (TString F) l) l (TArrayEnd F) r); [|apply take_strings; reflexivity|reflexivity].
    cbn [app]. eexists. split; [reflexivity|]. split; [reflexivity|].
    destruct H as (H1 & H2 & H3 & H4). apply (fill_get' _ _ _ l H4 G).
  Qed.
  Lemma float_array_value len x ts fs r : lexer_ok x -> ahead x = bracket F ts ++ r -> Forall2 number ts fs ->
    len < 0 \/ len = Z.of_nat (length fs) ->
    exists y, get_float_array F of_int len x = (Ok F (RFloats F (to_array fs (fst (get_buf (floats F x))))), y) /\
      ahead y = r /\ nth (fst (get_buf (floats F x))) (bufs _ (floats F y)) [] = fs.
  Proof.
    intros H E N L. unfold bracket in E. cbn [app] in E. rewrite <- app_assoc in E. cbn [app] in E.
    unfold get_float_array. destruct (get_buf (floats F x)) as [n q] eqn:G. rewrite peek_ahead.
    change (RibLexSpec.ahead F (with_floats F x q)) with (ahead x). rewrite E. cbn [hd tl fst].
    rewrite get_ahead. cbn [RibLexSpec.ahead have with_input tl src with_floats].
    rewrite (elements_all (take_float F of_int) ts fs (TArrayEnd F) r); [|apply take_numbers; exact N|reflexivity].
    cbn [app]. replace ((0 <=? len) && negb (Z.of_nat (length fs) =? len)) with false.
    - eexists. split; [reflexivity|]. split; [reflexivity|]. cbn [floats with_floats with_input].
      destruct H as (H1 & H2 & H3 & H4). apply (fill_get' _ _ _ fs H2 G).
    - symmetry. destruct (Z.leb_spec 0 len); [|reflexivity]. destruct L as [L|L]; [lia|].
      rewrite <- L, Z.eqb_refl. reflexivity.
  Qed.

  Lemma plain_array_value len x ts fs r : lexer_ok x -> ahead x = ts ++ r -> Forall2 number ts fs ->
    len = Z.of_nat (length fs) -> (ts = [] -> forall u, r <> TArrayBegin F :: u) ->
    exists y, get_float_array F of_int len x = (Ok F (RFloats F (to_array fs (fst (get_buf (floats F x))))), y) /\
      same_stream (ahead y) r /\ nth (fst (get_buf (floats F x))) (bufs _ (floats F y)) [] = fs.
  Proof.
    intros H E N L NB. unfold get_float_array. destruct (get_buf (floats F x)) as [n q] eqn:G. rewrite peek_ahead.
    change (RibLexSpec.ahead F (with_floats F x q)) with (ahead x). cbn [fst].
    set (y := with_input F _ _ _ true).
    assert (Fy : floats F y = q) by reflexivity.
    assert (Ay : exists r', ahead y = ts ++ r' /\ same_stream r' r).
    { unfold y. cbn [RibLexSpec.ahead have with_input tok src with_floats]. rewrite E. destruct ts as [|t ts].
      - cbn [app]. exists (hd Eof r :: tl r). split; [reflexivity|]. intros m. destruct r; cbn; [|reflexivity].
        destruct m as [|[|m]]; reflexivity.
      - exists r. split; [reflexivity|apply same_refl]. }
    clearbody y. destruct Ay as (r' & Ay & Sr).
    assert (T : exists y', (if 0 <=? len then
          match plain_floats F of_int (Z.to_nat len) [] y with
          | (res, l, x2) =>
              let x3 := with_floats F x2 (fill n l (floats F x2)) in
              match res with Some _ => (Ok F (RFloats F (to_array l n)), x3) | None => (Failed F, x3) end
          end
        else let (t', x2) := tok_get F y in token_error F t' x2) =
        (Ok F (RFloats F (to_array fs n)), y') /\ same_stream (ahead y') r /\ nth n (bufs _ (floats F y')) [] = fs).
    { replace (0 <=? len) with true by (symmetry; apply Z.leb_le; lia). rewrite L, Nat2Z.id.
      destruct (plain_spec ts fs N [] y r' Ay) as (x2 & P & Q & R). rewrite P. cbn [app].
      eexists. split; [reflexivity|]. split.
      - change (RibLexSpec.ahead F (with_floats F x2 (fill n fs (floats F x2)))) with (ahead x2). rewrite Q. exact Sr.
      - cbn [floats with_floats]. rewrite R, Fy. destruct H as (H1 & H2 & H3 & H4). apply (fill_get' _ _ _ fs H2 G). }
    rewrite E. destruct ts as [|t ts]; cbn [app hd].
    - destruct r as [|t r]; [exact T|]. cbn [hd]. destruct t; try exact T. destruct (NB eq_refl r eq_refl).
    - inversion N as [|? ? ? ? N1]; subst. destruct N1; exact T.
  Qed.

  Lemma read_value k x v rest : lexer_ok x -> starts_with k (ahead x) v rest -> no_zero F v ->
    exists r y, read k x = (Ok F r, y) /\ deref F y r = v /\ same_stream (ahead y) rest.
  Proof.
    intros H (ts & E & S & NB) Z. destruct S; cbn [RibLexModel.read no_zero] in *.
    - exists (RInt F i). eexists. unfold get_int. rewrite get_ahead, E. split; [reflexivity|]. split; [reflexivity|apply same_refl].
    - exists (RFloat F f). eexists. rewrite get_float_spec, E. cbn [app hd tl]. apply take_number in H0. rewrite H0.
      split; [reflexivity|]. split; [reflexivity|apply same_refl].
    - unfold get_string. rewrite get_ahead, E. cbn [app hd tl]. unfold store_string. cbn [strings with_input].
      destruct (get_buf (strings F x)) as [n q] eqn:G. destruct H as (H1 & H2 & H3 & H4).
      destruct (fill_get' _ _ _ s H1 G) as (a & b & c & d).
      eexists. eexists. split; [reflexivity|]. split; [|apply same_refl].
      cbn [deref strings with_strings buf]. rewrite d, cstr_id by exact Z. reflexivity.
    - destruct (int_array_value x l rest H E) as (y & R & A & B). exists (RInts F (to_array l (fst (get_buf (ints F x))))), y.
      split; [exact R|]. rewrite A. split; [|apply same_refl]. cbn [deref]. rewrite (nth_array l _ _ B). reflexivity.
    - destruct (float_array_value n x ts fs rest H E H0 H1) as (y & R & A & B). exists (RFloats F (to_array fs (fst (get_buf (floats F x))))), y.
      split; [exact R|]. rewrite A. split; [|apply same_refl]. cbn [deref]. rewrite (nth_array fs _ _ B). reflexivity.
    - destruct (plain_array_value n x ts fs rest H E H0 H1 NB) as (y & R & A & B). exists (RFloats F (to_array fs (fst (get_buf (floats F x))))), y.
      split; [exact R|]. split; [|exact A]. cbn [deref]. rewrite (nth_array fs _ _ B). reflexivity.
    - destruct (string_array_value x l rest H E) as (y & R & A & B). exists (RStrings F (to_array l (fst (get_buf (arrays F x))))), y.
      split; [exact R|]. rewrite A. split; [|apply same_refl]. cbn [deref]. rewrite (nth_array l _ _ B), map_cstr by exact Z. reflexivity.
    - unfold get_int_param. rewrite peek_ahead, E. cbn [app hd tl]. cbn [ints with_input]. rewrite get_ahead.
      destruct (get_buf (ints F x)) as [n q] eqn:G. destruct H as (H1 & H2 & H3 & H4).
      destruct (fill_get' _ _ _ [i] H3 G) as (a & b & c & d).
      eexists. eexists. split; [reflexivity|]. split; [|apply same_refl]. cbn [deref ints with_ints buf]. rewrite d. reflexivity.
    - unfold get_int_param. rewrite peek_ahead, E. cbn [app hd tl bracket].
      set (y := with_input F _ _ _ true). assert (Ay : ahead y = bracket F (map (TInteger F) l) ++ rest) by reflexivity.
      assert (Hy : lexer_ok y) by exact H.
      destruct (int_array_value y l rest Hy Ay) as (y' & R & A & B). exists (RInts F (to_array l (fst (get_buf (ints F y))))), y'.
      split; [exact R|]. rewrite A. split; [|apply same_refl]. cbn [deref]. rewrite (nth_array l _ _ B). reflexivity.
    - unfold get_float_param. rewrite peek_ahead, E. cbn [app hd tl].
      set (y := with_input F _ _ _ true). assert (Hy : lexer_ok y) by exact H. assert (Ay : ahead y = t :: rest) by reflexivity. clearbody y.
      assert (One : exists r y', (let (n, p) := get_buf (floats F y) in
        let (_, x2) := tok_get F y in (Ok F (RFloats F (Some n)), with_floats F x2 (fill n [f] p))) = (Ok F r, y') /\
        deref F y' r = VFloats F [f] /\ same_stream (ahead y') rest).
      { destruct (get_buf (floats F y)) as [n q] eqn:G. rewrite get_ahead, Ay. destruct Hy as (H1 & H2 & H3 & H4).
        destruct (fill_get' _ _ _ [f] H2 G) as (a & b & c & d).
        eexists. eexists. split; [reflexivity|]. split; [|apply same_refl]. cbn [deref floats with_floats buf]. rewrite d. reflexivity. }
      destruct H0; exact One.
    - unfold get_float_param. rewrite peek_ahead, E. cbn [app hd tl bracket].
      set (y := with_input F _ _ _ true). assert (Ay : ahead y = bracket F ts ++ rest) by reflexivity.
      assert (Hy : lexer_ok y) by exact H. cbv zeta.
      assert (L : -1 < 0 \/ -1 = Z.of_nat (length fs)) by lia.
      destruct (float_array_value (-1) y ts fs rest Hy Ay H0 L) as (y' & R & A & B). exists (RFloats F (to_array fs (fst (get_buf (floats F y))))), y'.
      split; [exact R|]. rewrite A. split; [|apply same_refl]. cbn [deref]. rewrite (nth_array fs _ _ B). reflexivity.
    - unfold get_string_param. rewrite peek_ahead, E. cbn [app hd tl]. cbn [arrays with_input]. rewrite get_ahead.
      destruct (get_buf (arrays F x)) as [n q] eqn:G. destruct H as (H1 & H2 & H3 & H4).
      destruct (fill_get' _ _ _ [s] H4 G) as (a & b & c & d).
      eexists. eexists. split; [reflexivity|]. split; [|apply same_refl]. cbn [deref arrays with_arrays buf]. rewrite d. cbn [map].
      rewrite cstr_id by (apply Z; left; reflexivity). reflexivity.
    - unfold get_string_param. rewrite peek_ahead, E. cbn [app hd tl bracket].
      set (y := with_input F _ _ _ true). assert (Ay : ahead y = bracket F (map (TString F) l) ++ rest) by reflexivity.
      assert (Hy : lexer_ok y) by exact H.
      destruct (string_array_value y l rest Hy Ay) as (y' & R & A & B). exists (RStrings F (to_array l (fst (get_buf (arrays F y))))), y'.
      split; [exact R|]. rewrite A. split; [|apply same_refl]. cbn [deref]. rewrite (nth_array l _ _ B), map_cstr by exact Z. reflexivity.
  Qed.

  (** A read that succeeds has found a value. *)
  Lemma int_array_inv x r y : get_int_array F x = (Ok F r, y) ->
    exists l rest, ahead x = bracket F (map (TInteger F) l) ++ rest.
  Proof.
    unfold get_int_array. rewrite get_ahead. destruct (ahead x) as [|t a] eqn:A; cbn [hd tl]; [discriminate|].
    destruct t; try discriminate. destruct (get_buf _) as [n q]. cbn [src with_input].
    destruct (elements_spec (take_int F) a []) as (ts & vs & V & [[-> D]|(t' & r' & -> & N & D)]); rewrite D; [discriminate|].
    apply take_ints in V. subst ts. destruct t'; try discriminate. intros _. exists vs, r'.
    unfold bracket. cbn [app]. rewrite <- app_assoc. reflexivity.
  Qed.
  Lemma string_array_inv x r y : get_string_array F x = (Ok F r, y) ->
    exists l rest, ahead x = bracket F (map (TString F) l) ++ rest.
  Proof.
    unfold get_string_array. rewrite get_ahead. destruct (ahead x) as [|t a] eqn:A; cbn [hd tl]; [discriminate|].
    destruct t; try discriminate. destruct (get_buf _) as [n q]. cbn [src with_input].
    destruct (elements_spec (take_string F) a []) as (ts & vs & V & [[-> D]|(t' & r' & -> & N & D)]); rewrite D; [discriminate|].
    apply take_strings in V. subst ts. destruct t'; try discriminate. intros _. exists vs, r'.
    unfold bracket. cbn [app]. rewrite <- app_assoc. reflexivity.
  Qed.
  Lemma float_array_inv len x r y : get_float_array F of_int len x = (Ok F r, y) ->
    (exists ts fs rest, ahead x = bracket F ts ++ rest /\ Forall2 number ts fs /\ (len < 0 \/ len = Z.of_nat (length fs))) \/
    (exists ts fs rest, ahead x = ts ++ rest /\ Forall2 number ts fs /\ len = Z.of_nat (length fs) /\
       (ts = [] -> forall u, rest <> TArrayBegin F :: u)).
  Proof.
    unfold get_float_array. destruct (get_buf _) as [n q]. rewrite peek_ahead.
    change (RibLexSpec.ahead F (with_floats F x q)) with (ahead x).
    set (z := with_input F _ _ _ true). assert (Az : ahead z = hd Eof (ahead x) :: tl (ahead x)) by reflexivity. clearbody z.
    intros E.
    assert (P : (forall u, ahead x <> TArrayBegin F :: u) -> (if 0 <=? len then
          match plain_floats F of_int (Z.to_nat len) [] z with
          | (res, l, x2) =>
              let x3 := with_floats F x2 (fill n l (floats F x2)) in
              match res with Some _ => (Ok F (RFloats F (to_array l n)), x3) | None => (Failed F, x3) end
          end
        else let (t', x2) := tok_get F z in token_error F t' x2) = (Ok F r, y) ->
      exists ts fs rest, ahead x = ts ++ rest /\ Forall2 number ts fs /\ len = Z.of_nat (length fs) /\
       (ts = [] -> forall u, rest <> TArrayBegin F :: u)).
    { intros NB. destruct (Z.leb_spec 0 len) as [L|L].
      - destruct (plain_floats F of_int (Z.to_nat len) [] z) as [[res l] x2] eqn:PE. destruct res as [l'|]; [|discriminate]. intros _.
        apply plain_inv in PE as (ts & fs & N & Ln & Q). rewrite Az in Q.
        destruct (ahead x) as [|t a] eqn:A.
        + cbn [hd tl] in Q. destruct ts as [|t ts].
          * exists [], fs, []. split; [reflexivity|]. split; [exact N|]. split; [lia|]. discriminate.
          * inversion Q; subst. inversion N as [|? ? ? ? N1]. inversion N1.
        + cbn [hd tl] in Q. exists ts, fs, (ahead x2). split; [exact Q|]. split; [exact N|]. split; [lia|].
          intros -> u. cbn [app] in Q. rewrite <- Q. apply NB.
      - rewrite get_ahead. intros E'. pose proof (token_error_fails (hd Eof (RibLexSpec.ahead F z)) (with_input F z (tl (RibLexSpec.ahead F z)) (hd Eof (RibLexSpec.ahead F z)) false)) as TF.
        rewrite E' in TF. discriminate. }
    destruct (ahead x) as [|t a] eqn:A; cbn [hd tl] in *.
    - right. apply P; [discriminate|exact E].
    - destruct t; try (right; apply P; [discriminate|exact E]; fail).
      left. rewrite get_ahead, Az in E. cbn [hd tl src with_input] in E.
      destruct (elements_spec (take_float F of_int) a []) as (ts & vs & V & [[-> D]|(t' & r' & -> & N & D)]); rewrite D in E; [discriminate|].
      apply take_numbers in V. destruct t'; try discriminate. cbn [app] in E.
      destruct ((0 <=? len) && negb (Z.of_nat (length vs) =? len)) eqn:C; [discriminate|].
      exists ts, vs, r'. split; [unfold bracket; cbn [app]; rewrite <- app_assoc; reflexivity|]. split; [exact V|].
      apply andb_false_iff in C as [C|C]; [left; apply Z.leb_gt; exact C|].
      right. apply negb_false_iff in C. apply Z.eqb_eq in C. lia.
  Qed.

  Lemma read_inv k x r y : read k x = (Ok F r, y) -> exists v rest, starts_with k (ahead x) v rest.
  Proof.
    assert (Mk : forall k ts rest v, ahead x = ts ++ rest -> spells k ts v -> ts <> [] -> exists v rest, starts_with k (ahead x) v rest).
    { intros k0 ts rest v E S N. exists v, rest, ts. split; [exact E|]. split; [exact S|]. intros Q. destruct (N Q). }
    destruct k; cbn [RibLexModel.read]; intros E.
    - unfold get_int in E. rewrite get_ahead in E. destruct (ahead x) as [|t a] eqn:A; cbn [hd tl] in E; [discriminate|].
      destruct t; try discriminate. apply (Mk KInt [TInteger F i] a (VInt F i)); [reflexivity|constructor|discriminate].
    - rewrite get_float_spec in E. destruct (ahead x) as [|t a] eqn:A; cbn [hd tl] in E; [discriminate|].
      destruct (take_float F of_int t) as [f|] eqn:T.
      + apply (Mk KFloat [t] a (VFloat F f)); [reflexivity|constructor; apply take_number; exact T|discriminate].
      + destruct t; discriminate.
    - unfold get_string in E. rewrite get_ahead in E. destruct (ahead x) as [|t a] eqn:A; cbn [hd tl] in E; [discriminate|].
      destruct t; try discriminate. apply (Mk KString [TString F s] a (VString F s)); [reflexivity|constructor|discriminate].
    - apply int_array_inv in E as (l & rest & E). eapply Mk; [exact E|constructor|discriminate].
    - apply float_array_inv in E as [(ts & fs & rest & E & N & L)|(ts & fs & rest & E & N & L & NB)].
      + eapply Mk; [exact E|constructor; eassumption|discriminate].
      + exists (VFloats F fs), rest, ts. split; [exact E|]. split; [constructor; assumption|exact NB].
    - apply string_array_inv in E as (l & rest & E). eapply Mk; [exact E|constructor|discriminate].
    - unfold get_int_param in E. rewrite peek_ahead in E. set (z := with_input F _ _ _ true) in E.
      assert (Az : ahead z = hd Eof (ahead x) :: tl (ahead x)) by reflexivity. clearbody z.
      destruct (ahead x) as [|t a] eqn:A; cbn [hd tl] in *.
      + apply int_array_inv in E as (l & rest & E). rewrite Az in E. discriminate.
      + destruct t; try (apply int_array_inv in E as (l & rest & E); rewrite Az in E; eapply Mk; [exact E|constructor|discriminate]).
        eapply Mk with (ts := [TInteger F i]); [reflexivity|constructor|discriminate].
    - unfold get_float_param in E. rewrite peek_ahead in E. set (z := with_input F _ _ _ true) in E.
      assert (Az : ahead z = hd Eof (ahead x) :: tl (ahead x)) by reflexivity. clearbody z.
      destruct (ahead x) as [|t a] eqn:A; cbn [hd tl] in *.
      + apply float_array_inv in E as [(ts & fs & rest & E & N & L)|(ts & fs & rest & E & N & L & NB)]; [rewrite Az in E; discriminate|lia].
      + destruct t; try (apply float_array_inv in E as [(ts & fs & rest & E & N & L)|(ts & fs & rest & E & N & L & NB)]; [|lia];
          rewrite Az in E; eapply Mk; [exact E|constructor; exact N|discriminate]).
        * eapply Mk with (ts := [TInteger F i]); [reflexivity|constructor; constructor|discriminate].
        * eapply Mk with (ts := [TFloat F f]); [reflexivity|constructor; constructor|discriminate].
    - unfold get_string_param in E. rewrite peek_ahead in E. set (z := with_input F _ _ _ true) in E.
      assert (Az : ahead z = hd Eof (ahead x) :: tl (ahead x)) by reflexivity. clearbody z.
      destruct (ahead x) as [|t a] eqn:A; cbn [hd tl] in *.
      + apply string_array_inv in E as (l & rest & E). rewrite Az in E. discriminate.
      + destruct t; try (apply string_array_inv in E as (l & rest & E); rewrite Az in E; eapply Mk; [exact E|constructor|discriminate]).
        eapply Mk with (ts := [TString F s]); [reflexivity|constructor|discriminate].
  Qed.

  (** * Requests *)

  Local Notation requests := (requests F).
  Fixpoint before_eof (l : list token) : nat :=
    match l with [] => 0 | TEof _ :: _ => 0 | _ :: r => S (before_eof r) end.
  (** No request was lost. *)
  Definition same_requests (l l' : list token) : Prop := requests l' = requests l /\ (before_eof l' <= before_eof l)%nat.

  Lemma sr_refl l : same_requests l l.
  Proof. split; auto. Qed.
  Lemma sr_trans l l' l'' : same_requests l l' -> same_requests l' l'' -> same_requests l l''.
  Proof. intros [a b] [c d]. split; [congruence|lia]. Qed.
  Lemma sr_pad l : same_requests l (hd Eof l :: tl l).
  Proof. destruct l as [|t l]; [split; auto|]. destruct t; split; auto. Qed.
  Lemma sr_pop t l : stops_discard F t = false -> same_requests (t :: l) l.
  Proof. destruct t; try discriminate; intros _; split; cbn; auto. Qed.

  Lemma sr_elements {A} (take : token -> option A) l : (forall t a, take t = Some a -> stops_discard F t = false) ->
    forall acc, let '(_, t, r) := elements F take acc l in same_requests l (t :: r).
  Proof.
    intros Q. induction l as [|t l IH]; intros acc; cbn [elements]; [apply (sr_pad [])|].
    destruct (take t) as [a|] eqn:T; [|apply sr_refl].
    specialize (IH (acc ++ [a])). destruct (elements F take (acc ++ [a]) l) as [[vs t'] r].
    eapply sr_trans; [apply sr_pop; eapply Q; exact T|exact IH].
  Qed.

  Lemma sr_error t x : have F x = false -> tok F x = t -> same_requests (t :: src F x) (ahead (snd (token_error F t x))).
  Proof.
    intros H T. unfold RibLexSpec.ahead.
    destruct t; cbn [token_error snd tok_unget have with_input tok src]; rewrite ?H, ?T; try apply sr_refl; apply sr_pop; reflexivity.
  Qed.

  Lemma sr_hd_error x t y : t = hd Eof (ahead x) -> src F y = tl (ahead x) -> tok F y = t -> have F y = false ->
    same_requests (ahead x) (ahead (snd (token_error F t y))).
  Proof.
    intros E S T H. eapply sr_trans; [apply sr_pad|]. rewrite <- E, <- S. apply sr_error; assumption.
  Qed.

  Lemma take_int_quiet t a : take_int F t = Some a -> stops_discard F t = false.
  Proof. destruct t; try discriminate; reflexivity. Qed.
  Lemma take_float_quiet t a : take_float F of_int t = Some a -> stops_discard F t = false.
  Proof. destruct t; try discriminate; reflexivity. Qed.
  Lemma take_string_quiet t a : take_string F t = Some a -> stops_discard F t = false.
  Proof. destruct t; try discriminate; reflexivity. Qed.

  Lemma sr_int_array x : same_requests (ahead x) (ahead (snd (get_int_array F x))).
  Proof.
    unfold get_int_array. rewrite get_ahead. destruct (hd Eof (ahead x)) eqn:Hd; try (apply sr_hd_error; auto; fail).
    destruct (get_buf _) as [n q]. cbn [src with_input].
    pose proof (sr_elements (take_int F) (tl (ahead x)) take_int_quiet []) as X.
    destruct (elements F (take_int F) [] (tl (ahead x))) as [[l t'] r].
    assert (Y : same_requests (ahead x) (t' :: r)).
    { eapply sr_trans; [apply sr_pad|]. rewrite Hd. eapply sr_trans; [apply sr_pop; reflexivity|exact X]. }
    set (y := with_ints F _ _). assert (Hy : have F y = false) by reflexivity. assert (Ty : tok F y = t') by reflexivity.
    assert (Sy : src F y = r) by reflexivity. assert (Ay : ahead y = r) by reflexivity. clearbody y. subst r.
    destruct t'; try (eapply sr_trans; [exact Y|]; apply sr_error; assumption).
  Qed.
  Lemma sr_string_array x : same_requests (ahead x) (ahead (snd (get_string_array F x))).
  Proof.
    unfold get_string_array. rewrite get_ahead. destruct (hd Eof (ahead x)) eqn:Hd; try (apply sr_hd_error; auto; fail).
    destruct (get_buf _) as [n q]. cbn [src with_input].
    pose proof (sr_elements (take_string F) (tl (ahead x)) take_string_quiet []) as X.
    destruct (elements F (take_string F) [] (tl (ahead x))) as [[l t'] r].
    assert (Y : same_requests (ahead x) (t' :: r)).
    { eapply sr_trans; [apply sr_pad|]. rewrite Hd. eapply sr_trans; [apply sr_pop; reflexivity|exact X]. }
    set (y := with_arrays F _ _). assert (Hy : have F y = false) by reflexivity. assert (Ty : tok F y = t') by reflexivity.
    assert (Sy : src F y = r) by reflexivity. assert (Ay : ahead y = r) by reflexivity. clearbody y. subst r.
    destruct t'; try (eapply sr_trans; [exact Y|]; apply sr_error; assumption).
  Qed.

  Lemma sr_float x : same_requests (ahead x) (ahead (snd (get_float F of_int x))).
  Proof.
    rewrite get_float_spec. destruct (take_float F of_int (hd Eof (ahead x))) as [f|] eqn:T; [|apply sr_hd_error; auto].
    eapply sr_trans; [apply sr_pad|]. apply sr_pop. eapply take_float_quiet. exact T.
  Qed.
  Lemma sr_plain n : forall acc x, same_requests (ahead x) (ahead (snd (plain_floats F of_int n acc x))).
  Proof.
    induction n as [|n IH]; intros acc x; cbn [plain_floats]; [apply sr_refl|].
    pose proof (sr_float x) as X. destruct (get_float F of_int x) as [[r|] x1]; [|exact X]. cbn [snd] in X.
    destruct r; try exact X. eapply sr_trans; [exact X|apply IH].
  Qed.

  Lemma sr_float_array len x : same_requests (ahead x) (ahead (snd (get_float_array F of_int len x))).
  Proof.
    unfold get_float_array. destruct (get_buf _) as [n q]. rewrite peek_ahead.
    change (RibLexSpec.ahead F (with_floats F x q)) with (ahead x).
    set (z := with_input F _ _ _ true). assert (Az : ahead z = hd Eof (ahead x) :: tl (ahead x)) by reflexivity. clearbody z.
    assert (Sz : same_requests (ahead x) (ahead z)) by (rewrite Az; apply sr_pad).
    assert (P : same_requests (ahead x) (ahead (snd (if 0 <=? len then
          match plain_floats F of_int (Z.to_nat len) [] z with
          | (res, l, x2) =>
              let x3 := with_floats F x2 (fill n l (floats F x2)) in
              match res with Some _ => (Ok F (RFloats F (to_array l n)), x3) | None => (Failed F, x3) end
          end
        else let (t', x2) := tok_get F z in token_error F t' x2)))).
    { eapply sr_trans; [exact Sz|]. destruct (0 <=? len).
      - pose proof (sr_plain (Z.to_nat len) [] z) as X. destruct (plain_floats F of_int (Z.to_nat len) [] z) as [[res l] x2].
        destruct res; exact X.
      - rewrite get_ahead. apply sr_hd_error; reflexivity. }
    destruct (hd Eof (ahead x)) eqn:Hd; try exact P. clear P.
    rewrite get_ahead, Az. cbn [hd tl src with_input].
    pose proof (sr_elements (take_float F of_int) (tl (ahead x)) take_float_quiet []) as X.
    destruct (elements F (take_float F of_int) [] (tl (ahead x))) as [[l t'] r].
    assert (Y : same_requests (ahead x) (t' :: r)).
    { eapply sr_trans; [apply sr_pad|]. rewrite Hd. eapply sr_trans; [apply sr_pop; reflexivity|exact X]. }
    set (y := with_floats F _ _). assert (Hy : have F y = false) by reflexivity. assert (Ty : tok F y = t') by reflexivity.
    assert (Sy : src F y = r) by reflexivity. assert (Ay : ahead y = r) by reflexivity. clearbody y. subst r.
    destruct t'; try (eapply sr_trans; [exact Y|]; apply sr_error; assumption).
    destruct ((0 <=? len) && negb (Z.of_nat (length l) =? len)); (eapply sr_trans; [exact Y|]; cbn [snd]; rewrite Ay; apply sr_pop; reflexivity).
  Qed.

  Lemma sr_read k x : same_requests (ahead x) (ahead (snd (read k x))).
  Proof.
    destruct k; cbn [RibLexModel.read].
    - unfold get_int. rewrite get_ahead. destruct (hd Eof (ahead x)) eqn:Hd; try (apply sr_hd_error; auto; fail).
      eapply sr_trans; [apply sr_pad|]. rewrite Hd. apply sr_pop. reflexivity.
    - apply sr_float.
    - unfold get_string. rewrite get_ahead. destruct (hd Eof (ahead x)) eqn:Hd; try (apply sr_hd_error; auto; fail).
      eapply sr_trans; [apply sr_pad|]. rewrite Hd. unfold store_string. destruct (get_buf _). apply sr_pop. reflexivity.
    - apply sr_int_array.
    - apply sr_float_array.
    - apply sr_string_array.
    - unfold get_int_param. rewrite peek_ahead. set (z := with_input F _ _ _ true).
      assert (Sz : same_requests (ahead x) (ahead z)) by apply sr_pad.
      destruct (hd Eof (ahead x)) eqn:Hd; try (eapply sr_trans; [exact Sz|apply sr_int_array]).
    - unfold get_float_param. rewrite peek_ahead. set (z := with_input F _ _ _ true).
      assert (Sz : same_requests (ahead x) (ahead z)) by apply sr_pad. cbv zeta.
      destruct (hd Eof (ahead x)) eqn:Hd; try (eapply sr_trans; [exact Sz|apply sr_float_array]);
        (destruct (get_buf _); rewrite get_ahead; eapply sr_trans; [exact Sz|]; apply sr_pop; reflexivity).
    - unfold get_string_param. rewrite peek_ahead. set (z := with_input F _ _ _ true).
      assert (Sz : same_requests (ahead x) (ahead z)) by apply sr_pad.
      destruct (hd Eof (ahead x)) eqn:Hd; try (eapply sr_trans; [exact Sz|apply sr_string_array]).
  Qed.

  Lemma sr_peek x : same_requests (ahead x) (ahead (snd (peek_next_type F x))).
  Proof. unfold peek_next_type. rewrite peek_ahead. apply sr_pad. Qed.

  Lemma sr_discard_from l : forall t, let (t', r) := discard_from F t l in same_requests (t :: l) (t' :: r) /\ stops_discard F t' = true.
  Proof.
    induction l as [|u l IH]; intros t; cbn [discard_from]; destruct (stops_discard F t) eqn:S; try (split; [apply sr_refl|exact S]).
    - split; [|reflexivity]. eapply sr_trans; [apply sr_pop; exact S|apply sr_pad].
    - specialize (IH u). destruct (discard_from F u l) as [t' r]. destruct IH as [a b]. split; [|exact b].
      eapply sr_trans; [apply sr_pop; exact S|exact a].
  Qed.
  Lemma sr_discard x : same_requests (ahead x) (ahead (discard_until_request F x)) /\
    stops_discard F (hd Eof (ahead (discard_until_request F x))) = true /\ pools (discard_until_request F x) = pools x.
  Proof.
    unfold discard_until_request. rewrite peek_ahead. cbn [src with_input].
    pose proof (sr_discard_from (tl (ahead x)) (hd Eof (ahead x))) as X.
    destruct (discard_from F (hd Eof (ahead x)) (tl (ahead x))) as [t' r]. destruct X as [a b].
    split; [|split; [exact b|reflexivity]]. eapply sr_trans; [apply sr_pad|exact a].
  Qed.

  (** nextRequest. *)
  Definition unused (x : lexer) : lexer :=
    mkLexer F (src F x) (tok F x) (have F x) (mark_unused (strings F x)) (mark_unused (floats F x))
      (mark_unused (ints F x)) (mark_unused (arrays F x)).
  Lemma unused_ok x : lexer_ok (unused x).
  Proof. repeat split; unfold pool_ok; cbn; lia. Qed.
  Lemma next_cases x :
    (exists y, next_request F x = (None, y) /\ requests (ahead x) = []) \/
    (exists y, next_request F x = (Some (Failed F), y) /\ requests (ahead y) = requests (ahead x) /\
       (before_eof (ahead y) < before_eof (ahead x))%nat /\ stops_discard F (hd Eof (ahead x)) = false) \/
    (exists r y s, next_request F x = (Some (Ok F r), y) /\ ahead x = TRequest F s :: ahead y /\
       deref F y r = VString F (cstr s) /\ handed_out y r).
  Proof.
    unfold next_request. fold (unused x). rewrite get_ahead. change (ahead (unused x)) with (ahead x).
    destruct (ahead x) as [|t a] eqn:A; cbn [hd tl]; [left; eexists; split; reflexivity|].
    assert (Q : forall u, t = u -> stops_discard F u = false ->
      exists y, (let (o, x2) := token_error F u (with_input F (unused x) a u false) in (Some o, x2)) = (Some (Failed F), y) /\
       requests (ahead y) = requests (t :: a) /\ (before_eof (ahead y) < before_eof (t :: a))%nat /\ stops_discard F t = false).
    { intros u -> S. destruct u; try discriminate; eexists; (split; [reflexivity|]); cbn; repeat split; auto. }
    destruct t; try (right; left; apply Q; reflexivity).
    - right; right. unfold store_string.
      destruct (get_buf (strings F (with_input F (unused x) a (TRequest F s) false))) as [n q] eqn:G.
      destruct (fill_get' _ _ _ s (proj1 (unused_ok x)) G) as (c & d & e & f).
      eexists. eexists. exists s. split; [reflexivity|]. split; [reflexivity|]. split; [|exact e].
      cbn [deref strings with_strings buf]. rewrite f. reflexivity.
    - left. eexists. split; reflexivity.
  Qed.

  Lemma next_ok x : lexer_ok (snd (next_request F x)).
  Proof.
    unfold next_request. fold (unused x). rewrite get_ahead. change (ahead (unused x)) with (ahead x).
    set (y := with_input F (unused x) _ _ false). assert (Y : lexer_ok y) by apply unused_ok. clearbody y.
    destruct (hd Eof (ahead x)); try exact Y.
    pose proof (good_store s y Y) as [X _]. destruct (store_string F s y). exact X.
  Qed.

  (** * Runs of calls *)

  Local Notation run := (run F of_int).
  Lemma new_ok l : lexer_ok (new_lexer F l).
  Proof. repeat split; unfold pool_ok; cbn; lia. Qed.
  Lemma do_op_ok o x : lexer_ok x -> lexer_ok (do_op F of_int x o).
  Proof.
    intros H. destruct o as [k| | |]; cbn [do_op].
    - apply (read_good k x H).
    - unfold peek_next_type. rewrite peek_ahead. exact H.
    - apply (lexer_ok_same x); [apply (sr_discard x)|exact H].
    - apply next_ok.
  Qed.
  Lemma run_ok ops : forall x, lexer_ok x -> lexer_ok (run ops x).
  Proof. induction ops as [|o ops IH]; intros x H; [exact H|]. apply IH. apply do_op_ok. exact H. Qed.
  Lemma do_op_keeps o x : lexer_ok x -> o <> ONext -> keeps x (do_op F of_int x o) /\
    same_requests (ahead x) (ahead (do_op F of_int x o)).
  Proof.
    intros H N. destruct o as [k| | |]; cbn [do_op].
    - split; [apply (read_good k x H)|apply sr_read].
    - split; [|apply sr_peek]. unfold peek_next_type. rewrite peek_ahead. exact (keeps_all_refl x).
    - destruct (sr_discard x) as (a & b & c). split; [|exact a].
      unfold pools in c. inversion c as [[E1 E2 E3 E4]]. unfold keeps. rewrite E1, E2, E3, E4. exact (keeps_all_refl x).
    - congruence.
  Qed.
  Lemma run_keeps ops : within_request ops -> forall x, lexer_ok x -> keeps x (run ops x) /\ same_requests (ahead x) (ahead (run ops x)).
  Proof.
    induction ops as [|o ops IH]; intros N x H; [split; [apply keeps_all_refl|apply sr_refl]|].
    assert (No : o <> ONext) by (intros ->; apply N; left; reflexivity).
    destruct (do_op_keeps o x H No) as [a b].
    destruct (IH (fun I => N (or_intror I)) _ (do_op_ok o x H)) as [c d].
    split; [eapply keeps_all_trans; eassumption|eapply sr_trans; eassumption].
  Qed.

  Lemma lifetime k x r y ops : lexer_ok x -> read k x = (Ok F r, y) -> within_request ops ->
    deref F (run ops y) r = deref F y r.
  Proof.
    intros H E N. pose proof (read_good k x H) as (a & b & c). rewrite E in *. cbn [fst snd] in *.
    apply keeps_deref; [apply run_keeps; assumption|]. apply c. reflexivity.
  Qed.
  Lemma lifetime_name x r y ops : next_request F x = (Some (Ok F r), y) -> within_request ops ->
    deref F (run ops y) r = deref F y r.
  Proof.
    intros E N. destruct (next_cases x) as [(y' & E' & _)|[(y' & E' & _)|(r' & y' & s & E' & _ & _ & H)]];
      rewrite E in E'; inversion E'; subst.
    apply keeps_deref; [|exact H]. apply run_keeps; [exact N|]. pose proof (next_ok x) as X. rewrite E in X. exact X.
  Qed.

  Lemma recovery ops x : lexer_ok x -> within_request ops ->
    match requests (ahead x) with
    | [] => exists y, next_request F (run (ops ++ [ODiscard]) x) = (None, y)
    | s :: more => exists r y, next_request F (run (ops ++ [ODiscard]) x) = (Some (Ok F r), y) /\
                     deref F y r = VString F (cstr s) /\ requests (ahead y) = more
    end.
  Proof.
    intros H N. unfold RibLexSpec.run. rewrite fold_left_app. cbn [fold_left do_op].
    change (fold_left (do_op F of_int) ops x) with (run ops x).
    destruct (run_keeps ops N x H) as [_ [S _]]. set (z := run ops x) in *. clearbody z.
    destruct (sr_discard z) as ((Q & _) & D & _). rewrite S in Q.
    set (w := discard_until_request F z) in *. clearbody w. rewrite <- Q.
    destruct (next_cases w) as [(y & E & R)|[(y & E & R & _ & B)|(r & y & s & E & A & V & _)]].
    - rewrite R. exists y. exact E.
    - rewrite B in D. discriminate.
    - rewrite A. cbn [RibLexSpec.requests]. exists r, y. auto.
  Qed.

  (** * parseStream *)

  Local Notation handles := (handles F of_int).
  Local Notation parses := (parses F of_int).
  Lemma sr_handles h past x b y : handles h past x b y -> same_requests (ahead x) (ahead y).
  Proof.
    induction 1 as [past x _|past x _|past x t x1 b x2 _ P _ IH|past x k r x1 b x2 _ R _ IH|past x k x1 _ R].
    - apply sr_refl.
    - apply sr_refl.
    - pose proof (sr_peek x) as X. rewrite P in X. eapply sr_trans; eassumption.
    - pose proof (sr_read k x) as X. rewrite R in X. eapply sr_trans; eassumption.
    - pose proof (sr_read k x) as X. rewrite R in X. exact X.
  Qed.

  Lemma parses_requests hs x es y : parses hs x es y -> map fst es = map cstr (requests (ahead x)).
  Proof.
    assert (D : forall z, requests (ahead (discard_until_request F z)) = requests (ahead z)) by (intros z; apply (sr_discard z)).
    induction 1 as [x y E|x x1 es y E _ IH|x r x1 n es y E V _ _ IH|x r x1 n h x2 es y E V _ H _ IH|x r x1 n h x2 es y E V _ H _ IH];
      destruct (next_cases x) as [(y' & E' & R)|[(y' & E' & R & _)|(r' & y' & s & E' & A & V' & _)]];
      rewrite E in E'; inversion E'; subst.
    - rewrite R. reflexivity.
    - rewrite IH, D, R. reflexivity.
    - rewrite A. cbn [RibLexSpec.requests map fst]. rewrite IH, D. rewrite V in V'. inversion V'. reflexivity.
    - rewrite A. cbn [RibLexSpec.requests map fst]. rewrite IH. apply sr_handles in H as [H _]. rewrite H. rewrite V in V'. inversion V'. reflexivity.
    - rewrite A. cbn [RibLexSpec.requests map fst]. rewrite IH, D. apply sr_handles in H as [H _]. rewrite H. rewrite V in V'. inversion V'. reflexivity.
  Qed.

  Lemma parses_exist hs : (forall n h, hs n = Some h -> forall x, exists b y, handles h [] x b y) ->
    forall m x, (before_eof (ahead x) < m)%nat -> exists es y, parses hs x es y.
  Proof.
    intros T. assert (D : forall z, (before_eof (ahead (discard_until_request F z)) <= before_eof (ahead z))%nat) by (intros z; apply (sr_discard z)).
    induction m as [|m IH]; intros x L; [lia|].
    destruct (next_cases x) as [(y & E & R)|[(y & E & R & B & _)|(r & y & s & E & A & V & _)]].
    - exists [], y. constructor. exact E.
    - specialize (D y). destruct (IH (discard_until_request F y)) as (es & z & P); [lia|].
      exists es, z. eapply p_none; eassumption.
    - rewrite A in L. cbn [before_eof] in L. destruct (hs (cstr s)) as [h|] eqn:Hs.
      + destruct (T _ _ Hs y) as (b & y2 & H). pose proof (sr_handles _ _ _ _ _ H) as [_ B]. destruct b.
        * destruct (IH y2) as (es & z & P); [lia|]. exists ((cstr s, true) :: es), z. eapply p_done; eassumption.
        * specialize (D y2). destruct (IH (discard_until_request F y2)) as (es & z & P); [lia|].
          exists ((cstr s, false) :: es), z. eapply p_failed; eassumption.
      + specialize (D y). destruct (IH (discard_until_request F y)) as (es & z & P); [lia|].
        exists ((cstr s, false) :: es), z. eapply p_unknown; eassumption.
  Qed.
End Lexer.
