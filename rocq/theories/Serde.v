(** Model of the byte encodings of extension-field elements and curve points:
    src/serde.rs:173-372 (trait [Compressed]), src/derive/curve.rs:69-185 and
    616-760 ([GroupEncoding], [UncompressedEncoding], [SerdeObject]) and
    src/derive/field/tower.rs ([impl_tower2]).

    A [CtOption] is an option.  The combinators of crate subtle run their
    closures unconditionally, on a default value when the option is empty; the
    model does the same, so that a panic inside a closure shows. *)
From Verif Require Import Base Word Limbs Bytes Field SpecField LimbsFacts FieldFacts Algebra Tower Curve Inverse PrimeField LimbField Sqrt Sqrt2.

(** ** [subtle::CtOption] over computations that may panic *)
Definition ct_and_then {A B} (dflt : A) (m : sq_out A) (f : A -> sq_out B) : sq_out B :=
  match m with
  | SqRet (Some a) => f a
  | SqRet None => match f dflt with SqRet _ => SqRet None | r => r end
  | SqPanic => SqPanic
  | SqDiverge => SqDiverge
  end.
Definition ct_or_else {A} (m f : sq_out A) : sq_out A :=
  match m with
  | SqRet a => match f with
               | SqRet b => SqRet (match a with Some _ => a | None => b end)
               | r => r
               end
  | r => r
  end.
Definition ct_map {A B} (f : A -> B) (m : sq_out A) : sq_out B :=
  match m with
  | SqRet a => SqRet (option_map f a)
  | SqPanic => SqPanic
  | SqDiverge => SqDiverge
  end.
Definition ct_new {A} (v : A) (is_some : bool) : sq_out A := SqRet (if is_some then Some v else None).

(** ** What the point encodings use of a base field *)
Record codec (F : Type) := mk_codec {
  k_size : nat;                                (** [$base::SIZE] *)
  k_big : bool;                                (** [EndianRepr::ENDIAN] is [BE] *)
  k_to_bytes : F -> list Z;
  k_from_bytes : list Z -> sq_out F;
  k_to_repr : F -> list Z;
  k_lex : F -> bool;                           (** [lexicographically_largest] *)
  k_sqrt : F -> sq_out F;
  k_to_raw : F -> list Z;                      (** [to_raw_bytes], [write_raw] *)
  k_from_raw : list Z -> option F;             (** [from_raw_bytes] *)
  k_read_raw : list Z -> option (F * list Z)         (** [read_raw], with the rest of the stream *)
  }.
Arguments mk_codec {F}. Arguments k_size {F}. Arguments k_big {F}. Arguments k_to_bytes {F}.
Arguments k_from_bytes {F}. Arguments k_to_repr {F}. Arguments k_lex {F}. Arguments k_sqrt {F}.
Arguments k_to_raw {F}. Arguments k_from_raw {F}. Arguments k_read_raw {F}.

(** The generated prime fields: the functions of Field.v on the wrapped limb
    type (LimbField.v). *)
Definition fp_codec (c : fconf) (Hc : odd_conf c) : codec (lf c) :=
  let up := lf_of (lf0 c Hc) in
  {| k_size := size c;
     k_big := big_endian c;
     k_to_bytes := fun x => to_bytes c (limbs x);
     k_from_bytes := fun l => SqRet (option_map up (from_bytes c l));
     k_to_repr := fun x => to_repr c (limbs x);
     k_lex := fun x => lexicographically_largest c (limbs x);
     k_sqrt := fun x => SqRet (fp_sqrt (lf_ops c Hc) (lf_inj c Hc) c x);
     k_to_raw := fun x => to_raw_bytes (limbs x);
     k_from_raw := fun l => option_map up (from_raw_bytes c l);
     k_read_raw := fun r => option_map (fun ar => (up (fst ar), snd ar)) (read_raw c r) |}.

(** ** [impl_tower2] *)
Section Tower2.
Context {F : Type} (o : fops F) (k : codec F).
(** tower.rs:56-63 *)
Definition t2_to_bytes (a : quad F) : list Z := k_to_bytes k (q0 a) ++ k_to_bytes k (q1 a).
(** [c0.unwrap()], [c1.unwrap()] *)
Definition unwrap_pair (a b : sq_out F) : sq_out (quad F) :=
  match a, b with
  | SqRet (Some a), SqRet (Some b) => SqRet (Some (mk_quad a b))
  | SqDiverge, _ => SqDiverge
  | _, SqDiverge => SqDiverge
  | _, _ => SqPanic
  end.
(** tower.rs:41-51: [is_some] is only read after both [unwrap]s *)
Definition t2_from_bytes (bytes : list Z) : sq_out (quad F) :=
  unwrap_pair (k_from_bytes k (firstn (k_size k) bytes))
              (k_from_bytes k (firstn (k_size k) (skipn (k_size k) bytes))).
(** tower.rs:138-145 *)
Definition t2_to_repr (a : quad F) : list Z := k_to_repr k (q0 a) ++ k_to_repr k (q1 a).
(** tower.rs:68-77 *)
Definition t2_lex (a : quad F) : bool := k_lex k (q1 a) || (fis0 o (q1 a) && k_lex k (q0 a)).
(** tower.rs:168-174, 185-188 *)
Definition t2_to_raw (a : quad F) : list Z := k_to_raw k (q0 a) ++ k_to_raw k (q1 a).
(** tower.rs:158-167 *)
Definition t2_from_raw (bytes : list Z) : option (quad F) :=
  if negb (length bytes =? 2 * k_size k)%nat then None
  else match k_from_raw k (firstn (k_size k) bytes), k_from_raw k (firstn (k_size k) (skipn (k_size k) bytes)) with
       | Some a, Some b => Some (mk_quad a b)
       | _, _ => None
       end.
(** tower.rs:179-184 *)
Definition t2_read_raw (r : list Z) : option (quad F * list Z) :=
  match k_read_raw k r with
  | None => None
  | Some (a, r) => match k_read_raw k r with
                   | None => None
                   | Some (b, r) => Some (mk_quad a b, r)
                   end
  end.
(** [sqrt2]: [Field::sqrt] of the extension (Sqrt2.v) *)
Definition t2_codec (sqrt2 : quad F -> sq_out (quad F)) : codec (quad F) :=
  {| k_size := 2 * k_size k; k_big := k_big k;
     k_to_bytes := t2_to_bytes; k_from_bytes := t2_from_bytes; k_to_repr := t2_to_repr;
     k_lex := t2_lex; k_sqrt := sqrt2;
     k_to_raw := t2_to_raw; k_from_raw := t2_from_raw; k_read_raw := t2_read_raw |}.
End Tower2.

(** tower.rs:126-136 [from_repr] and 191-211 [from_uniform_bytes] over the limb fields *)
Definition t2_from_repr (c : fconf) (Hc : odd_conf c) (repr : list Z) : sq_out (quad (lf c)) :=
  let up := lf_of (lf0 c Hc) in
  unwrap_pair (SqRet (option_map up (from_repr c (firstn (size c) repr))))
              (SqRet (option_map up (from_repr c (skipn (size c) repr)))).
Definition t2_from_uniform_bytes (c : fconf) (Hc : odd_conf c) (half : nat) (bytes : list Z) : quad (lf c) :=
  let up := lf_of (lf0 c Hc) in
  mk_quad (up (from_uniform_bytes c (skipn half bytes))) (up (from_uniform_bytes c (firstn half bytes))).

(** ** Flags, serde.rs:173-211 *)
Inductive flag_conf := Extra | TwoSpare | ThreeSpare.
Definition flag_bit (pos : Z) : Z := Z.shiftl 1 (7 - pos).
Definition flag_set (pos : Z) (value : bool) (b : Z) : Z := if value then Z.lor b (flag_bit pos) else b.
(** the bit, and the byte with the bit cleared *)
Definition flag_get (pos : Z) (b : Z) : bool * Z :=
  (negb (Z.land b (flag_bit pos) =? 0), Z.land b (255 - flag_bit pos)).
(** serde.rs:237-258 *)
Definition pos_sign (cf : flag_conf) : Z := match cf with ThreeSpare => 2 | _ => 0 end.
Definition pos_compressed (cf : flag_conf) : option Z := match cf with ThreeSpare => Some 0 | _ => None end.
Definition pos_identity (cf : flag_conf) : Z := 1.

(** Update of the byte at index [i]. *)
Definition upd_at (i : nat) (f : Z -> Z) (l : list Z) : list Z :=
  firstn i l ++ f (nth i l 0) :: skipn (S i) l.

(** ** Point encodings *)
Section Point.
Context {F : Type} (o : fops F) (c : cconf F) (k : codec F) (cf : flag_conf) (lex : bool).

(** [standard_sign] (curve.rs:74, 78) or [lexicographically_largest]
    (bls12381/g1.rs:36, 40, g2.rs:97, 101) *)
Definition y_sign (y : F) : bool :=
  if lex then k_lex k y else Z.land (hd 0 (k_to_repr k y)) 1 =? 1.
Definition cz_sign (P : aff F) : bool := y_sign (ay P) && negb (aff_is_identity o P).
(** curve.rs:76-81 *)
Definition cz_resolve (x : F) (sign_set : bool) : sq_out (aff F) :=
  ct_map (fun y => mk_aff x (select y (fneg o y) (xorb sign_set (y_sign y)))) (k_sqrt k (curve_y2 o c x)).

(** curve.rs:101 *)
Definition csize : nat := k_size k + match cf with Extra => 1 | _ => 0 end.
(** serde.rs:219-231 *)
Definition flag_index : nat :=
  match cf with Extra => 0 | _ => if k_big k then 0 else csize - 1 end.

(** serde.rs:296-313; [None] is the panic of [coordinates().unwrap()]
    ([Coordinates::from_xy] of crate pasta_curves: present iff [C::from_xy] is). *)
Definition cz_encode (P : aff F) : option (list Z) :=
  match from_xy o c (ax P) (ay P) with
  | None => None
  | Some Q =>
      let x_bytes := k_to_bytes k (ax Q) in
      let this := match cf with Extra => 0 :: x_bytes | _ => x_bytes end in
      let this := upd_at flag_index (flag_set (pos_identity cf) (aff_is_identity o P)) this in
      let this := upd_at flag_index (flag_set (pos_sign cf) (cz_sign P)) this in
      Some (match pos_compressed cf with
            | Some pos => upd_at flag_index (flag_set pos true) this
            | None => this
            end)
  end.

(** [Flag::get] on the flag byte of the array *)
Definition cz_get (pos : Z) (this : list Z) : bool * list Z :=
  (fst (flag_get pos (nth flag_index this 0)), upd_at flag_index (fun b => snd (flag_get pos b)) this).

(** serde.rs:315-372 *)
Definition cz_decode (this : list Z) : sq_out (aff F) :=
  let '(is_valid_0, this) :=
    match pos_compressed cf with Some pos => cz_get pos this | None => (true, this) end in
  let '(is_identity, this) := cz_get (pos_identity cf) this in
  let '(sign, this) := cz_get (pos_sign cf) this in
  let is_valid_1 := match cf with Extra => nth flag_index this 0 =? 0 | _ => true end in
  let x := match cf with Extra => k_from_bytes k (skipn 1 this) | _ => k_from_bytes k this end in
  ct_and_then (f0 o) x (fun x =>
    let is_zero := fis0 o x in
    let is_valid_2 := xorb (is_identity && is_zero && negb sign) (negb is_identity && negb is_zero) in
    let is_valid := is_valid_0 && is_valid_1 && is_valid_2 in
    ct_or_else (ct_new (aff_identity o) (is_valid && is_identity))
      (ct_and_then (aff_identity o) (cz_resolve x sign) (fun c => ct_new c is_valid))).

(** curve.rs:104-139 [GroupEncoding]; the two [from_bytes_unchecked] are the same. *)
Definition aff_to_bytes (P : aff F) : option (list Z) := cz_encode P.
Definition aff_from_bytes (l : list Z) : sq_out (aff F) := cz_decode l.
Definition proj_to_bytes (P : proj F) : option (list Z) := cz_encode (to_affine o P).
Definition proj_from_bytes (l : list Z) : sq_out (proj F) := ct_map (to_curve o) (cz_decode l).

(** curve.rs:141-185 [UncompressedEncoding] *)
Definition from_uncompressed_unchecked (bytes : list Z) : sq_out (aff F) :=
  let x := k_from_bytes k (firstn (k_size k) bytes) in
  let y := k_from_bytes k (firstn (k_size k) (skipn (k_size k) bytes)) in
  ct_and_then (f0 o) x (fun x => ct_and_then (f0 o) y (fun y =>
    let is_identity := fis0 o x && fis0 o y in
    ct_or_else (ct_new (aff_identity o) is_identity) (ct_new (mk_aff x y) true))).
Definition from_uncompressed (bytes : list Z) : sq_out (aff F) :=
  ct_and_then (aff_identity o) (from_uncompressed_unchecked bytes)
    (fun P => ct_new P (aff_is_on_curve o c P)).
Definition to_uncompressed (P : aff F) : list Z :=
  k_to_bytes k (select (ax P) (f0 o) (aff_is_identity o P))
  ++ k_to_bytes k (select (ay P) (f0 o) (aff_is_identity o P)).

(** curve.rs:616-655, [SerdeObject] of the projective type *)
Definition slice (i : nat) (bytes : list Z) : list Z := firstn (k_size k) (skipn (i * k_size k) bytes).
Definition proj_to_raw (P : proj F) : list Z := k_to_raw k (px P) ++ k_to_raw k (py P) ++ k_to_raw k (pz P).
Definition proj_from_raw (bytes : list Z) : option (proj F) :=
  if negb (length bytes =? 3 * k_size k)%nat then None
  else match k_from_raw k (slice 0 bytes), k_from_raw k (slice 1 bytes), k_from_raw k (slice 2 bytes) with
       | Some x, Some y, Some z =>
           let res := mk_proj x y z in if proj_is_on_curve o c res then Some res else None
       | _, _, _ => None
       end.
Definition proj_read_raw (r : list Z) : option (proj F * list Z) :=
  match k_read_raw k r with
  | None => None
  | Some (x, r) => match k_read_raw k r with
    | None => None
    | Some (y, r) => match k_read_raw k r with
      | None => None
      | Some (z, r) => Some (mk_proj x y z, r)
      end
    end
  end.
(** curve.rs:718-757, [SerdeObject] of the affine type *)
Definition aff_to_raw (P : aff F) : list Z := k_to_raw k (ax P) ++ k_to_raw k (ay P).
Definition aff_from_raw (bytes : list Z) : option (aff F) :=
  if negb (length bytes =? 2 * k_size k)%nat then None
  else match k_from_raw k (slice 0 bytes), k_from_raw k (slice 1 bytes) with
       | Some x, Some y => let res := mk_aff x y in if aff_is_on_curve o c res then Some res else None
       | _, _ => None
       end.
Definition aff_read_raw (r : list Z) : option (aff F * list Z) :=
  match k_read_raw k r with
  | None => None
  | Some (x, r) => match k_read_raw k r with
    | None => None
    | Some (y, r) => Some (mk_aff x y, r)
    end
  end.
End Point.
