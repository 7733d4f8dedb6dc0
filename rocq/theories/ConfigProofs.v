From Coq Require Import String Ascii Bool Arith List NArith Lia DecimalString DecimalN Decimal.
From Verif Require Import ConfigModel ConfigSpec.
Import ListNotations.
Local Open Scope string_scope.

Lemma sapp_assoc a b c : (a ++ b) ++ c = a ++ (b ++ c).
Proof. induction a; cbn; congruence. Qed.
Lemma sapp_inj a b c : a ++ b = a ++ c -> b = c.
Proof. induction a; cbn; [auto|]. intros H; injection H; auto. Qed.

(** *** Items *)
Definition scan1 (c : ascii) (x : nat * bool) : option (nat * bool) :=
  let '(d, q) := x in
  if Ascii.eqb c """" then Some (d, negb q)
  else if q then Some (d, true)
  else if existsb (Ascii.eqb c) ["<"; "("; "{"; "["]%char then Some (S d, false)
  else if existsb (Ascii.eqb c) [">"; ")"; "}"; "]"]%char then match d with 0 => None | S d => Some (d, false) end
  else if Ascii.eqb c "," then match d with 0 => None | S d => Some (S d, false) end
  else Some (d, false).
Fixpoint scan (s : string) (x : nat * bool) : option (nat * bool) :=
  match s with
  | EmptyString => Some x
  | String c s => match scan1 c x with Some y => scan s y | None => None end
  end.
Lemma scan_app a : forall b x, scan (a ++ b) x = match scan a x with Some y => scan b y | None => None end.
Proof. induction a as [|c a IH]; intros b x; cbn; [reflexivity|]. destruct (scan1 c x); auto. Qed.
Lemma inb c l : existsb (Ascii.eqb c) l = true <-> In c l.
Proof.
  rewrite existsb_exists. split; [intros (y & H & E); apply Ascii.eqb_eq in E; now subst|]. intros H. exists c. split; [exact H|apply Ascii.eqb_refl].
Qed.
Lemma inb_not c l : existsb (Ascii.eqb c) l = false <-> ~ In c l.
Proof. rewrite <- inb. destruct (existsb _ l); split; congruence. Qed.
Lemma item_scan d q s : item d q s <-> scan s (d, q) = Some (0, false).
Proof.
  split.
  - induction 1 as [|d c s N _ IH|d q s _ IH|d c s O _ IH|d c s C _ IH|d s _ IH|d c s N O C K _ IH]; cbn [scan scan1].
    + reflexivity.
    + apply Ascii.eqb_neq in N. rewrite N. exact IH.
    + exact IH.
    + destruct O as [<-|[<-|[<-|[<-|[]]]]]; exact IH.
    + destruct C as [<-|[<-|[<-|[<-|[]]]]]; exact IH.
    + exact IH.
    + apply Ascii.eqb_neq in N, K. apply inb_not in O, C. rewrite N, O, C, K. exact IH.
  - revert d q. induction s as [|c s IH]; intros d q H.
    + cbn in H. injection H as -> ->. constructor.
    + cbn [scan scan1] in H. destruct (Ascii.eqb_spec c """") as [->|N]; [apply item_quote; apply IH; exact H|].
      destruct q; [apply item_quoted; [exact N|apply IH; exact H]|].
      destruct (existsb _ ["<"; _; _; _]%char) eqn:O; [apply item_open; [apply inb; exact O|apply IH; exact H]|].
      destruct (existsb _ [">"; _; _; _]%char) eqn:C; [destruct d; [discriminate|]; apply item_close; [apply inb; exact C|apply IH; exact H]|].
      destruct (Ascii.eqb_spec c ",") as [->|K]; [destruct d; [discriminate|]; apply item_comma; apply IH; exact H|].
      apply item_char; auto; apply inb_not; assumption.
Qed.
Lemma scan_deeper k s : forall d q d' q', scan s (d, q) = Some (d', q') -> scan s (d + k, q) = Some (d' + k, q').
Proof.
  induction s as [|c s IH]; intros d q d' q' H; cbn [scan scan1] in *.
  - injection H as <- <-. reflexivity.
  - destruct (Ascii.eqb c """"); [apply IH; exact H|]. destruct q; [apply IH; exact H|].
    destruct (existsb _ _); [apply (IH (S d)); exact H|]. destruct (existsb _ _); [destruct d; [discriminate|]; apply IH; exact H|].
    destruct (Ascii.eqb c ","); [destruct d; [discriminate|]; apply (IH (S d)); exact H|]. apply IH; exact H.
Qed.
(** What comes after an item. *)
Definition ends (s : string) : Prop := match s with String c _ => c = ","%char \/ c = ">"%char | EmptyString => False end.
Lemma item_app_inj a b s t : one_item a -> one_item b -> ends s -> ends t -> a ++ s = b ++ t -> a = b /\ s = t.
Proof.
  unfold one_item. rewrite !item_scan. intros A B S T. revert A B. generalize (0, false) at 1 3 as x.
  revert b. induction a as [|c a IH]; intros [|c' b] x A B E; cbn in E.
  - auto.
  - cbn in A. injection A as ->. subst s. destruct S as [-> | ->]; discriminate B.
  - cbn in B. injection B as ->. subst t. destruct T as [-> | ->]; discriminate A.
  - injection E as <- E. cbn [scan] in A, B. destruct (scan1 c x) as [y|]; [|discriminate]. destruct (IH b y A B E) as [-> ->]. auto.
Qed.
Lemma join_cons x l : l <> [] -> join (x :: l) = x ++ ", " ++ join l.
Proof. destruct l; [congruence|reflexivity]. Qed.
Lemma join_inj l : forall l' s t, l <> [] -> l' <> [] -> Forall one_item l -> Forall one_item l' ->
  join l ++ String ">" s = join l' ++ String ">" t -> l = l' /\ s = t.
Proof.
  induction l as [|x l IH]; intros [|y l'] s t N N' F F' E; try congruence.
  inversion F as [|? ? X L]; inversion F' as [|? ? Y L']; subst. clear F F' N N'.
  destruct l as [|x2 l], l' as [|y2 l'].
  - cbn [join] in E. apply item_app_inj in E as [-> E]; auto; [|cbn; auto|cbn; auto]. injection E as ->. auto.
  - rewrite (join_cons y) in E by discriminate. rewrite sapp_assoc in E. apply item_app_inj in E as [_ E]; auto; [|cbn; auto|cbn; auto]. discriminate E.
  - rewrite (join_cons x) in E by discriminate. rewrite sapp_assoc in E. apply item_app_inj in E as [_ E]; auto; [|cbn; auto|cbn; auto]. discriminate E.
  - rewrite (join_cons x), (join_cons y) in E by discriminate. rewrite !sapp_assoc in E. apply item_app_inj in E as [-> E]; auto; [|cbn; auto|cbn; auto].
    apply sapp_inj in E. apply IH in E as [-> ->]; auto; discriminate.
Qed.
Lemma scan_item k s : one_item s -> scan s (k, false) = Some (k, false).
Proof. intros H. apply item_scan in H. apply (scan_deeper k) in H. exact H. Qed.
Lemma scan_join k l : Forall one_item l -> scan (join l) (S k, false) = Some (S k, false).
Proof.
  induction 1 as [|x l X L IH]; [reflexivity|]. destruct l as [|y l]; [apply scan_item; exact X|].
  rewrite join_cons by discriminate. rewrite !scan_app, (scan_item _ _ X). exact IH.
Qed.

(** *** Names and numbers *)
Definition without (c : ascii) (s : string) : Prop := ~ In c (list_ascii_of_string s).
Lemma until_inj c a : forall b s t, without c a -> without c b -> a ++ String c s = b ++ String c t -> a = b /\ s = t.
Proof.
  unfold without. induction a as [|x a IH]; intros [|y b] s t A B E; cbn in *.
  - injection E as ->. auto.
  - injection E as -> _. tauto.
  - injection E as -> _. tauto.
  - injection E as -> E. destruct (IH b s t) as [-> ->]; auto.
Qed.
Lemma scan_name k s : unquoted s -> scan s (k, true) = Some (k, true).
Proof.
  unfold unquoted. induction s as [|c s IH]; intros U; [reflexivity|]. cbn in *. destruct (Ascii.eqb_spec c """") as [->|N]; [tauto|]. apply IH. tauto.
Qed.
Definition digits (s : string) : Prop := Forall (fun c => In c ["0"; "1"; "2"; "3"; "4"; "5"; "6"; "7"; "8"; "9"]%char) (list_ascii_of_string s).
Lemma number_digits n : digits (number_text n).
Proof. unfold number_text, digits. induction (N.to_uint n); cbn; constructor; cbn; auto 12. Qed.
Lemma number_inj n m : number_text n = number_text m -> n = m.
Proof.
  unfold number_text. intros E. apply DecimalN.Unsigned.to_uint_inj.
  assert (H : NilEmpty.uint_of_string (NilEmpty.string_of_uint (N.to_uint n)) = NilEmpty.uint_of_string (NilEmpty.string_of_uint (N.to_uint m))) by now rewrite E.
  rewrite !NilEmpty.usu in H. congruence.
Qed.
Lemma digits_without c s : digits s -> ~ In c ["0"; "1"; "2"; "3"; "4"; "5"; "6"; "7"; "8"; "9"]%char -> without c s.
Proof. intros D N H. apply N. exact (proj1 (Forall_forall _ _) D c H). Qed.
Lemma scan_number k n : scan (number_text n) (k, false) = Some (k, false).
Proof.
  generalize (number_digits n). unfold digits. induction (number_text n) as [|c s IH]; intros D; [reflexivity|].
  inversion D as [|? ? C D']; subst. cbn [scan]. assert (E : scan1 c (k, false) = Some (k, false)); [|rewrite E; auto].
  cbn in C. decompose [or] C; subst; try contradiction; reflexivity.
Qed.

(** *** Configurations *)
Section Induction.
  Variable P : config -> Prop.
  Hypothesis He : forall n c p fs, P (Element n c p fs).
  Hypothesis Hc : forall n c p xs, Forall P xs -> P (Container n c p xs).
  Fixpoint config_ind' (x : config) : P x :=
    match x with
    | Element n c p fs => He n c p fs
    | Container n c p xs => Hc n c p xs ((fix go l : Forall P l := match l with [] => Forall_nil _ | y :: l => Forall_cons _ (config_ind' y) (go l) end) xs)
    end.
End Induction.

Definition good_types (ts : list type) : Prop := Forall (fun t => one_item (config_string1 t)) ts.
Definition good (x : config) : Prop := good_types (types_of x) /\ Forall unquoted (names_of x).
Lemma good_inv x : good x -> match x with
  | Element n c p fs => unquoted n /\ good_types (types_of_control c) /\ one_item (config_string1 p) /\ Forall one_item (map config_string1 fs)
  | Container n c p xs => unquoted n /\ good_types (types_of_control c) /\ one_item (config_string1 p) /\ Forall good xs
  end.
Proof.
  unfold good, good_types. destruct x as [n c p fs|n c p xs]; cbn [types_of names_of]; rewrite Forall_app; intros [[C T] N]; inversion T as [|? ? T1 T2]; inversion N as [|? ? N1 N2]; subst; repeat split; auto.
  - apply Forall_map. exact T2.
  - clear - T2 N2. induction xs as [|x xs IH]; constructor; cbn [flat_map] in *; rewrite Forall_app in T2, N2; destruct T2, N2; auto.
Qed.
Ltac step U := rewrite scan_app; first [rewrite scan_number | rewrite (scan_name _ _ U) | rewrite (scan_join 0) by (repeat constructor; auto) |
  match goal with |- match scan ?s ?x with Some _ => _ | None => _ end = _ => let v := eval vm_compute in (scan s x) in change (scan s x) with v end]; cbv beta iota.
Lemma text_item shared n c p rest : unquoted n -> good_types (types_of_control c) -> one_item (config_string1 p) -> Forall one_item rest ->
  one_item (control_text shared n c p rest).
Proof.
  intros U C P R. unfold good_types in C. apply item_scan. unfold control_text.
  destruct c as [k pr e|e s]; cbn [types_of_control] in C; inversion C as [|? ? C1 C2]; subst; [|inversion C2 as [|? ? C3 C4]; subst]; rewrite ?sapp_assoc;
    destruct shared; repeat step U; reflexivity.
Qed.
Lemma config_item x : good x -> one_item (config_text x).
Proof.
  induction x as [n c p fs|n c p xs IH] using config_ind'; intros G; apply good_inv in G as (U & C & P & R); cbn [config_text]; apply text_item; auto.
  apply Forall_map. rewrite Forall_forall in *. auto.
Qed.
Lemma control_inj shared shared' n n' c c' p p' rest rest' :
  unquoted n -> unquoted n' -> good_types (types_of_control c) -> good_types (types_of_control c') -> one_item (config_string1 p) -> one_item (config_string1 p') ->
  Forall one_item rest -> Forall one_item rest' ->
  control_text shared n c p rest = control_text shared' n' c' p' rest' ->
  shared = shared' /\ n = n' /\ control_alike c c' /\ shown_alike p p' /\ rest = rest'.
Proof.
  intros U U' C C' P P' R R' E. unfold control_text, good_types in *.
  assert (A : forall k q e k' q' e', one_item (config_string1 e) -> one_item (config_string1 e') ->
    n ++ quote ++ ", " ++ number_text k ++ "_irq, " ++ number_text q ++ ", " ++ join (config_string1 e :: config_string1 p :: rest) ++ ">" =
    n' ++ quote ++ ", " ++ number_text k' ++ "_irq, " ++ number_text q' ++ ", " ++ join (config_string1 e' :: config_string1 p' :: rest') ++ ">" ->
    n = n' /\ control_alike (Mcu k q e) (Mcu k' q' e') /\ shown_alike p p' /\ rest = rest').
  { intros k q e k' q' e' I I' H. change (quote ++ ?x) with (String """" x) in H. apply until_inj in H as [-> H]; [|exact U|exact U'].
    apply sapp_inj in H. change ("_irq, " ++ ?x) with (String "_" ("irq, " ++ x)) in H.
    apply until_inj in H as [K H]; try (apply digits_without; [apply number_digits|cbn; intuition discriminate]). apply number_inj in K. subst k'.
    apply sapp_inj in H. change (", " ++ ?x) with (String "," (" " ++ x)) in H.
    apply until_inj in H as [K H]; try (apply digits_without; [apply number_digits|cbn; intuition discriminate]). apply number_inj in K. subst q'.
    apply sapp_inj in H. apply join_inj in H as [H _]; [|discriminate|discriminate|repeat constructor; auto|repeat constructor; auto]. injection H as H1 H2 ->. split; [reflexivity|]. split; [constructor; exact H1|]. auto. }
  assert (B : forall e s e' s', one_item (config_string1 e) -> one_item (config_string1 s) -> one_item (config_string1 e') -> one_item (config_string1 s') ->
    n ++ quote ++ ", " ++ join (config_string1 e :: config_string1 s :: config_string1 p :: rest) ++ ">" =
    n' ++ quote ++ ", " ++ join (config_string1 e' :: config_string1 s' :: config_string1 p' :: rest') ++ ">" ->
    n = n' /\ control_alike (Fields e s) (Fields e' s') /\ shown_alike p p' /\ rest = rest').
  { intros e s e' s' I J I' J' H. change (quote ++ ?x) with (String """" x) in H. apply until_inj in H as [-> H]; [|exact U|exact U'].
    apply sapp_inj in H. apply join_inj in H as [H _]; [|discriminate|discriminate|repeat constructor; auto|repeat constructor; auto]. injection H as H1 H2 H3 ->. split; [reflexivity|]. split; [constructor; assumption|]. auto. }
  assert (D : forall c, good_types (types_of_control c) -> match c with Mcu _ _ e => one_item (config_string1 e) | Fields e s => one_item (config_string1 e) /\ one_item (config_string1 s) end).
  { intros [k q e|e s] D; unfold good_types in D; cbn [types_of_control] in D; inversion D as [|? ? D1 D2]; subst; [exact D1|]. inversion D2; subst. auto. }
  apply D in C, C'. clear D.
  destruct c as [k q e|e s], c' as [k' q' e'|e' s'], shared, shared'; try discriminate E; (split; [reflexivity|]);
    idtac.
  all: try (apply A; auto; apply (sapp_inj ("interrupt::shared_irq<" ++ quote)); exact E).
  all: try (apply A; auto; apply (sapp_inj ("interrupt::irq<" ++ quote)); exact E).
  all: try (destruct C, C'; apply B; auto; apply (sapp_inj ("interrupt::shared_sub_irq<" ++ quote)); exact E).
  all: try (destruct C, C'; apply B; auto; apply (sapp_inj ("interrupt::sub_irq<" ++ quote)); exact E).
Qed.
Lemma alike_text x : forall y, good x -> good y -> config_text x = config_text y -> alike x y.
Proof.
  induction x as [n c p fs|n c p xs IH] using config_ind'; intros y G G' E; apply good_inv in G as (U & C & P & R);
    destruct y as [n' c' p' fs'|n' c' p' xs']; apply good_inv in G' as (U' & C' & P' & R'); cbn [config_text] in E.
  - apply control_inj in E as (_ & -> & A & B & L); auto. constructor; auto.
    clear - L. revert fs' L. induction fs as [|f fs IH]; intros [|f' fs'] L; try discriminate; constructor; cbn in L; injection L; auto.
  - apply control_inj in E as (E & _); auto; [discriminate|]. apply Forall_map. rewrite Forall_forall in *. intros y Y. apply config_item. auto.
  - apply control_inj in E as (E & _); auto; [discriminate|]. apply Forall_map. rewrite Forall_forall in *. intros y Y. apply config_item. auto.
  - apply control_inj in E as (_ & -> & A & B & L); auto; try (apply Forall_map; rewrite Forall_forall in *; intros y Y; apply config_item; auto).
    constructor; auto. clear - IH L R R'. revert xs' R' L. induction xs as [|x xs IH2]; intros [|x' xs'] R' L; try discriminate; constructor; cbn in L; injection L as L1 L2;
      inversion IH; inversion R; inversion R'; subst; auto.
Qed.
Lemma text_alike x : forall y, alike x y -> config_text x = config_text y.
Proof.
  assert (T : forall shared n c c' p p' r, control_alike c c' -> shown_alike p p' -> control_text shared n c p r = control_text shared n c' p' r).
  { unfold control_text, shown_alike. intros shared n c c' p p' r [k q e e' E|e s e' s' E S] H; unfold shown_alike in *; rewrite ?E, ?S, H; reflexivity. }
  induction x as [n c p fs|n c p xs IH] using config_ind'; intros y A; inversion A as [? ? c' ? p' ? fs' C P L|? ? c' ? p' ? xs' C P L]; subst; cbn [config_text].
  - replace (map config_string1 fs') with (map config_string1 fs); [apply T; auto|]. clear - L. induction L; cbn; congruence.
  - replace (map config_text xs') with (map config_text xs); [apply T; auto|]. clear - L IH. induction L; inversion IH; subst; cbn; f_equal; auto.
Qed.
Lemma config_nonempty x s : config_text x ++ s <> String ">" "".
Proof. destruct x as [n [] p fs|n [] p xs]; cbn [config_text]; unfold control_text; cbn [append]; discriminate. Qed.
Lemma manager_alike xs ys : Forall good xs -> Forall good ys -> (manager_text xs = manager_text ys <-> Forall2 alike xs ys).
Proof.
  intros G G'. unfold manager_text. split.
  - intros E. apply sapp_inj in E.
    assert (K : forall zs, Forall good zs -> Forall one_item (map config_text zs)) by (intros zs Z; apply Forall_map; rewrite Forall_forall in *; intros; apply config_item; auto).
    assert (L : map config_text xs = map config_text ys).
    { destruct xs as [|x xs], ys as [|y ys]; [reflexivity| | |].
      - exfalso. cbn [map join] in E. destruct (map config_text ys); [|rewrite sapp_assoc in E]; symmetry in E; exact (config_nonempty _ _ E).
      - exfalso. cbn [map join] in E. destruct (map config_text xs); [|rewrite sapp_assoc in E]; exact (config_nonempty _ _ E).
      - apply (join_inj (map config_text (x :: xs)) (map config_text (y :: ys)) "" ""); auto; discriminate. }
    clear E K. revert ys G' L. induction G as [|x xs X G IH]; intros [|y ys] G' L; try discriminate; constructor; cbn in L; injection L as L1 L2; inversion G'; subst; auto using alike_text.
  - intros A. f_equal. f_equal. f_equal. clear G G'. induction A; cbn; f_equal; auto using text_alike.
Qed.
