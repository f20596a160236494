(** C01-C04: state, input and output containers (moirae/models/base.py,
    [GeneralContainer]). *)
From Coq Require Import String List Arith Lia.
Import ListNotations.
From Verif Require Import Res Arr Arr_lemmas Names Container Spec_Container Container_proofs.
Local Open Scope string_scope.

(** A container used as the concrete case: a shared scalar, an absent field and
    a two-value field that differs between two batch members. *)
Definition example : container nat :=
  [ ("soc", Some (mkArr 1 [[7]]));
    ("q0", None);
    ("i_rc", Some (mkArr 2 [[1; 2]; [3; 4]])) ].

Example example_meets : well_formed example /\ nonempty example /\ has_batch example 2 /\
  (forall k f, has_field example k f -> 1 <= anrows f) /\
  (forall k, In k (map fst example) -> no_char lbracket k).
Proof.
  split; [|split; [|split; [|split]]].
  - split.
    + repeat constructor; cbn; intuition discriminate.
    + intros k f [E|[E|[E|[]]]]; inversion E; subst; repeat constructor.
  - exists "soc", (mkArr 1 [[7]]). now left.
  - split.
    + intros k f [E|[E|[E|[]]]]; inversion E; subst; auto.
    + right. exists "i_rc", (mkArr 2 [[1; 2]; [3; 4]]). split; [right; right; now left|reflexivity].
  - intros k f [E|[E|[E|[]]]]; inversion E; subst; cbn; lia.
  - intros k [<-|[<-|[<-|[]]]] H; cbn in H; intuition discriminate.
Qed.

(** ** C01 *)

(** Encoding produces one row per batch member, made of the member's values in
    declaration order; fields with a single row are shared by all members. *)
Theorem C01_encode_rows : forall A (c : container A) B,
  well_formed c -> nonempty c -> (forall k f, has_field c k f -> 1 <= anrows f) ->
  has_batch c B ->
  exists m, to_numpy c = Ok m /\ wf_arr m /\ anrows m = B /\ acols m = width c /\
            forall b, b < B -> row b m = Some (member_values c b).
Proof. exact @to_numpy_rows. Qed.
Print Assumptions C01_encode_rows.

(** Encoding after decoding gives back every vector (or batch of vectors) of the
    right width, whatever the container held before. *)
Theorem C01_encode_after_decode : forall A (c : container A) (v : vals A),
  wf_vals v -> nonempty c -> acols (as2d v) = width c ->
  to_numpy (from_numpy c v) = Ok (as2d v).
Proof.
  intros A c v W NE E. rewrite decode_encode by auto.
  f_equal. apply hcat2_drop_all; [now apply wf_as2d|lia].
Qed.
Print Assumptions C01_encode_after_decode.

(** Decoding after encoding gives back every field, with shared rows written out
    once per member; absent fields stay absent. *)
Theorem C01_decode_after_encode : forall A (c : container A) B,
  well_formed c -> nonempty c -> (forall k f, has_field c k f -> 1 <= anrows f) ->
  has_batch c B ->
  exists v, to_numpy c = Ok v /\
  make_copy c (V2 v) =
    map (fun kf => (fst kf, option_map (broadcast_rows B) (snd kf))) c.
Proof. exact @encode_decode. Qed.
Print Assumptions C01_decode_after_encode.

(** Unbatched containers are restored exactly. *)
Theorem C01_decode_after_encode_unbatched : forall A (c : container A),
  well_formed c -> nonempty c -> (forall k f, has_field c k f -> anrows f = 1) ->
  exists v, to_numpy c = Ok v /\ make_copy c (V2 v) = c.
Proof.
  intros A c W NE P.
  destruct (encode_decode c 1 W NE) as (v & E & D).
  - intros k f H. now rewrite (P k f H).
  - split; [intros k f H; left; eauto|auto].
  - exists v. split; [exact E|]. unfold make_copy. rewrite D.
    rewrite <- (map_id c) at 2. apply map_ext. intros [k [f|]]; cbn; [|reflexivity].
    now rewrite broadcast_1.
Qed.
Print Assumptions C01_decode_after_encode_unbatched.

Example C01_case :
  to_numpy example = Ok (mkArr 3 [[7; 1; 2]; [7; 3; 4]]) /\
  from_numpy example (V1 [5; 6; 8]) =
    [("soc", Some (mkArr 1 [[5]])); ("q0", None); ("i_rc", Some (mkArr 2 [[6; 8]]))].
Proof. split; reflexivity. Qed.

(** A container without any value cannot be encoded at all. *)
Theorem C01_empty_raises : forall A (c : container A),
  ~ nonempty c -> to_numpy c = Err ValueError.
Proof.
  intros A c NE. unfold to_numpy, batch_size.
  destruct (present c) as [|f fs] eqn:E; [reflexivity|].
  exfalso. apply NE. assert (I : In f (present c)) by (rewrite E; now left).
  apply in_present in I as (k & I). now exists k, f.
Qed.
Print Assumptions C01_empty_raises.

(** ** C02 *)

(** The name at position j names exactly the value stored in column j, for every
    batch member; there is one name per column and one length. *)
Theorem C02_names_match_columns : forall A (c : container A) B m names,
  well_formed c -> nonempty c -> (forall k f, has_field c k f -> 1 <= anrows f) ->
  has_batch c B -> to_numpy c = Ok m -> all_names c = Ok names ->
  length names = acols m /\
  forall j nm, nth_error names j = Some nm ->
    exists k f i, denotes c nm k f i /\
      forall b, b < B -> entry b j m = nth_error (member b f) i.
Proof. exact @names_layout. Qed.
Print Assumptions C02_names_match_columns.

(** Names never fail to be listed, are pairwise different, and the reported
    length is their number. *)
Theorem C02_names_distinct : forall A (c : container A),
  well_formed c -> (forall k, In k (map fst c) -> no_char lbracket k) ->
  exists names, all_names c = Ok names /\ NoDup names /\ length names = clen c.
Proof.
  intros A c [ND W] NB. exists (names_present c). split; [now apply all_names_eq|].
  split; [now apply names_NoDup|]. now rewrite names_present_length, clen_width.
Qed.
Print Assumptions C02_names_distinct.

(** A name determines the field and the position inside it. *)
Theorem C02_name_unambiguous : forall A (c : container A) nm k1 f1 i1 k2 f2 i2,
  well_formed c -> (forall k, In k (map fst c) -> no_char lbracket k) ->
  denotes c nm k1 f1 i1 -> denotes c nm k2 f2 i2 -> k1 = k2 /\ f1 = f2 /\ i1 = i2.
Proof. intros A c nm k1 f1 i1 k2 f2 i2 [ND _]. now apply denotes_inj. Qed.
Print Assumptions C02_name_unambiguous.

Example C02_case : all_names example = Ok ["soc"; "i_rc[0]"; "i_rc[1]"] /\ clen example = 3.
Proof. split; reflexivity. Qed.

(** ** C03 *)

(** Loading never fails.  Extra columns are ignored, and missing columns leave
    the container with fewer values than before: re-encoding returns the first
    [width c] columns of what was given. *)
Theorem C03_wrong_width_is_silent : forall A (c : container A) (v : vals A),
  wf_vals v -> nonempty c ->
  exists m, to_numpy (from_numpy c v) = Ok m /\
    acols m = Nat.min (width c) (acols (as2d v)) /\
    arows m = map (firstn (width c)) (arows (as2d v)).
Proof.
  intros A c v W NE. exists (take_cols (width c) (as2d v)).
  split; [now apply decode_encode|]. split; reflexivity.
Qed.
Print Assumptions C03_wrong_width_is_silent.

(** So a container that is loaded with a short vector changes its own length. *)
Theorem C03_short_vector_changes_length_refuted :
  exists (c : container nat) (v : vals nat),
    well_formed c /\ clen (from_numpy c v) <> clen c.
Proof.
  exists example, (V1 [1; 2]). split; [apply example_meets|]. cbn. discriminate.
Qed.
Print Assumptions C03_short_vector_changes_length_refuted.

Theorem C03_surplus_ignored : forall A (c : container A) (v : arr A),
  from_numpy c (V2 v) = from_numpy c (V2 (slice_cols 0 (width c) v)).
Proof. intros A c v. unfold from_numpy; cbn. rewrite slice_0_take. apply decode_surplus. Qed.
Print Assumptions C03_surplus_ignored.

Example C03_case :
  from_numpy example (V1 [5; 6]) =
    [("soc", Some (mkArr 1 [[5]])); ("q0", None); ("i_rc", Some (mkArr 1 [[6]]))] /\
  from_numpy example (V1 [5; 6; 8; 9]) = from_numpy example (V1 [5; 6; 8]).
Proof. split; reflexivity. Qed.

(** ** C04 *)

(** The batch size is B exactly when every present field has one row or B rows
    and B is attained (or is 1). *)
Theorem C04_batch_size_iff : forall A (c : container A) B,
  (forall k f, has_field c k f -> 1 <= anrows f) ->
  (batch_size c = Ok B <-> has_batch c B).
Proof. exact @batch_size_ok. Qed.
Print Assumptions C04_batch_size_iff.

(** Two different sizes above one are rejected, by [batch_size] and [to_numpy]. *)
Theorem C04_inconsistent_raises : forall A (c : container A),
  (forall k f, has_field c k f -> 1 <= anrows f) ->
  (exists k1 f1 k2 f2, has_field c k1 f1 /\ has_field c k2 f2 /\
     1 < anrows f1 /\ 1 < anrows f2 /\ anrows f1 <> anrows f2) ->
  batch_size c = Err ValueError /\ to_numpy c = Err ValueError.
Proof.
  intros A c P H. pose proof (batch_size_fails c H P) as E.
  split; [exact E|]. unfold to_numpy. now rewrite E.
Qed.
Print Assumptions C04_inconsistent_raises.

Example C04_case :
  batch_size example = Ok 2 /\
  batch_size [("a", Some (mkArr 1 [[1]; [2]])); ("b", Some (mkArr 1 [[1]; [2]; [3]]))]
    = Err ValueError.
Proof. split; reflexivity. Qed.

(** With an array that has no rows, the answer depends on the order of fields. *)
Theorem C04_zero_rows_order_refuted :
  exists (f g : arr nat),
    batch_size [("a", Some f); ("b", Some g)] = Ok 2 /\
    batch_size [("b", Some g); ("a", Some f)] = Err ValueError.
Proof. exists (mkArr 1 []), (mkArr 1 [[1]; [2]]). split; reflexivity. Qed.
Print Assumptions C04_zero_rows_order_refuted.
