(** Image files (/repo/source/parser/mnist.hpp, cifar.hpp). A byte is a [Z] in 0 .. 255.
    Indices and sizes are [Z] (size_t or uint32_t; no step wraps: see the range facts in
    PropImages.v). Files do not change while they are open. *)
From Verif Require Import Base StreamModel CsvModel.
From Coq Require Import Ascii String.
Local Open Scope list_scope. Local Notation length := List.length.

Definition byte (b : Z) : Prop := (0 <= b < 256)%Z.

(** An object of type uint32_t with the bytes [buf]: its value on a little-endian or a
    big-endian machine. *)
Definition uint_le (buf : list Z) : Z := fold_right (fun b acc => b + 256 * acc)%Z 0%Z buf.
Definition uint_of (little : bool) (buf : list Z) : Z := if little then uint_le buf else uint_le (rev buf).
(** uint32_endian_order, mnist.hpp 55-65: two std::swap on the bytes of the object if the
    machine is little-endian *)
Definition swap (l : list Z) (i j : nat) : res (list Z) :=
  a <- rd l i ;; b <- rd l j ;; l <- wr l i b ;; wr l j a.
Definition endian_order (little : bool) (buf : list Z) : res (list Z) :=
  if little then buf <- swap buf 0 3 ;; swap buf 1 2 else Ok buf.
(** read_uint32_endian_order, 73-80. The variable is not initialised: its value is
    indeterminate after a short read, using it is undefined. *)
Definition read_uint32 (little : bool) (st : stream Z) : res (Z * stream Z) :=
  let '(got, st) := sread 4 st in
  _ <- require (length got =? 4) ;;
  buf <- endian_order little got ;;
  Ok (uint_of little buf, st).

(** A vector of [n] zeros into which [n] bytes are read: MnistImage, 96-104; CifarImage,
    cifar.hpp 91-102. After a short read the rest stays zero. *)
Definition read_image (n : nat) (st : stream Z) : list Z * stream Z :=
  let '(got, st) := sread n st in (got ++ repeat 0%Z (n - length got), st).
(** One byte into a variable that is zero: MnistLabel, 186-192; CifarLabel 215-237 *)
Definition read_byte (st : stream Z) : Z * stream Z :=
  let '(got, st) := sread 1 st in (hd 0%Z got, st).

(** *** Mnist, mnist.hpp 251-448 *)
Definition mnist_side : nat := 28.
Definition image_magic : Z := 2051. (* 0x00000803 *)
Definition label_magic : Z := 2049. (* 0x00000801 *)
Record mnist := mkMnist { m_img : stream Z; m_lab : stream Z; m_size : Z }.
(** Constructor, 268-321. [None]: the file cannot be opened. *)
Definition mnist_new (little : bool) (img lab : option (list Z)) : res mnist :=
  match img, lab with
  | Some img, Some lab =>
      '(magic, si) <- read_uint32 little (s_open img) ;;
      _ <- guard (magic =? image_magic)%Z ;;
      '(image_count, si) <- read_uint32 little si ;;
      '(magic, sl) <- read_uint32 little (s_open lab) ;;
      _ <- guard (magic =? label_magic)%Z ;;
      '(label_count, sl) <- read_uint32 little sl ;;
      _ <- guard (label_count =? image_count)%Z ;;
      '(rows, si) <- read_uint32 little si ;;
      '(columns, si) <- read_uint32 little si ;;
      _ <- guard ((rows =? Z.of_nat mnist_side) && (columns =? Z.of_nat mnist_side))%Z ;;
      Ok (mkMnist si sl image_count)
  | _, _ => Throw
  end.
(** image and label, 371-390: bytes and index; a remainder by zero is undefined *)
Definition mnist_image (m : mnist) (idx : Z) : res (list Z * Z * mnist) :=
  _ <- require (negb (m_size m =? 0)%Z) ;;
  let idx := (idx mod m_size m)%Z in
  let st := seekg (Z.to_nat (16 + idx * Z.of_nat mnist_side * Z.of_nat mnist_side)) (m_img m) in
  let '(data, st) := read_image (mnist_side * mnist_side) st in
  Ok (data, idx, mkMnist st (m_lab m) (m_size m)).
Definition mnist_label (m : mnist) (idx : Z) : res (Z * Z * mnist) :=
  _ <- require (negb (m_size m =? 0)%Z) ;;
  let idx := (idx mod m_size m)%Z in
  let st := seekg (Z.to_nat (8 + idx)) (m_lab m) in
  let '(b, st) := read_byte st in
  Ok (b, idx, mkMnist (m_img m) st (m_size m)).
(** entry, 402-409: bytes converted to double (exact) *)
Definition mnist_entry (m : mnist) (i : Z) : res (list Z * mnist) :=
  '(data, _, m) <- mnist_image m i ;;
  '(b, _, m) <- mnist_label m i ;;
  Ok (data ++ [b], m).
(** feature_size and labels_idx, 416-424 *)
Definition mnist_feature_size : nat := mnist_side * mnist_side + 1.
Definition mnist_labels_idx : list nat := [mnist_feature_size - 1].

(** *** Cifar, cifar.hpp 341-609 *)
Inductive dataset := Cifar10 | Cifar100.
Inductive order := ChnRowCol | RowColChn.
Definition cifar_side : nat := 32.
Definition cifar_channels : nat := 3.
Definition cifar_pixels : nat := cifar_side * cifar_side * cifar_channels.
Definition cifar_size : Z := 10000.
(** CifarImage::data, 112-139 *)
Definition cifar_data (o : order) (image : list Z) : res (list Z) :=
  match o with
  | ChnRowCol => Ok image
  | RowColChn =>
      for_ cifar_side (fun i ret =>
        let offset := i * cifar_side in
        let new_offset := i * cifar_side * cifar_channels in
        for_ cifar_side (fun j ret =>
          x <- rd image (offset + j) ;;
          ret <- wr ret (new_offset + j * cifar_channels) x ;;
          x <- rd image (cifar_side * cifar_side + offset + j) ;;
          ret <- wr ret (new_offset + j * cifar_channels + 1) x ;;
          x <- rd image (2 * cifar_side * cifar_side + offset + j) ;;
          wr ret (new_offset + j * cifar_channels + 2) x) ret)
        (repeat 0%Z (length image))
  end.
Record cifar := mkCifar { f_batch : stream Z; f_order : order; f_dataset : dataset; f_coarse : list chars; f_fine : list chars; f_label_offset : nat }.
(** while (std::getline(is, line)) if (!line.empty()) names.push_back(line), 366-372: at most
    one turn per character plus one. A file that cannot be opened gives a failed stream. *)
Fixpoint read_names (n : nat) (st : stream ascii) (line : chars) : list chars :=
  match n with
  | O => []
  | S n =>
      let '(line, st) := sgetline nl st line in
      if s_fail st then []
      else match line with [] => read_names n st line | _ => line :: read_names n st line end
  end.
Definition open_file {A} (f : option (list A)) : stream A :=
  match f with Some d => s_open d | None => mkS [] 0 false true end.
Definition file_names (f : option chars) : list chars :=
  read_names (S (length (s_data (open_file f)))) (open_file f) [].
(** Constructor, 352-401. [fine = None]: the empty path. [line] is shared by both loops; a
    successful getline replaces it. *)
Definition cifar_new (batch : option (list Z)) (coarse : option chars) (o : order) (ds : dataset) (fine : option (option chars)) : cifar :=
  let coarse_names := file_names coarse in
  let '(fine_names, ds) :=
    match fine, ds with
    | Some f, Cifar100 => (file_names f, Cifar100)
    | Some _, Cifar10 => ([], Cifar10)
    | None, _ => ([], Cifar10)
    end in
  mkCifar (open_file batch) o ds coarse_names fine_names (match ds with Cifar100 => 2 | Cifar10 => 1 end).
(** image, 484-493: the bytes kept in _image (data() reorders them), the index *)
Definition cifar_image (c : cifar) (idx : Z) : list Z * Z * cifar :=
  let idx := (idx mod cifar_size)%Z in
  let st := seekg (Z.to_nat (idx * (Z.of_nat cifar_pixels + Z.of_nat (f_label_offset c)) + Z.of_nat (f_label_offset c))) (f_batch c) in
  let '(data, st) := read_image cifar_pixels st in
  (data, idx, mkCifar st (f_order c) (f_dataset c) (f_coarse c) (f_fine c) (f_label_offset c)).
(** label, 500-507: coarse and fine label *)
Definition cifar_label (c : cifar) (idx : Z) : Z * Z * Z * cifar :=
  let idx := (idx mod cifar_size)%Z in
  let st := seekg (Z.to_nat (idx * (Z.of_nat cifar_pixels + Z.of_nat (f_label_offset c)))) (f_batch c) in
  let '(coarse, st) := read_byte st in
  let '(fine, st) := match f_dataset c with Cifar100 => read_byte st | Cifar10 => (0%Z, st) end in
  (coarse, fine, idx, mkCifar st (f_order c) (f_dataset c) (f_coarse c) (f_fine c) (f_label_offset c)).
(** entry, 519-540 *)
Definition cifar_entry (c : cifar) (i : Z) : res (list Z * cifar) :=
  let '(image, _, c) := cifar_image c i in
  data <- cifar_data (f_order c) image ;;
  let '(coarse, fine, _, c) := cifar_label c i in
  Ok (data ++ [match f_dataset c with Cifar100 => fine | Cifar10 => coarse end], c).
Definition cifar_feature_size : nat := cifar_pixels + 1.
Definition cifar_labels_idx : list nat := [cifar_feature_size - 1].

(** *** Printing *)
(** The table, mnist.hpp 134, cifar.hpp 154: sizeof is 71 with the closing zero *)
Definition grey_table : chars :=
  list_ascii_of_string "$@B%8&WM#*oahkbdpqwmZO0QLCJUYXzcvunxrjft/\|()1{}[]?-_+~<>i!lI;:,""^`'. "%string.
(** map\[static_cast<size_t>(grayscale * ((sizeof(map) - 1) / 256.0))\]: 70 / 256 and its
    product with a byte are exact in double. The closing zero of the table can be read. *)
Definition grey_char (g : Z) : res ascii := rd (grey_table ++ ["000"%char]) (Z.to_nat (g * 70 / 256)).
(** MnistImage::operator std::string, 131-151; [grey i j]: the grey value of a pixel *)
Definition image_text (side : nat) (grey : nat -> nat -> res Z) : res chars :=
  ret <- for_ side (fun i ret =>
    ret <- for_ side (fun j ret =>
      g <- grey i j ;;
      c <- grey_char g ;;
      Ok (ret ++ [c] ++ [c])) ret ;;
    Ok (ret ++ [nl])) [nl] ;;
  Ok (ret ++ [nl]).
Definition mnist_text (image : list Z) : res chars :=
  image_text mnist_side (fun i j => rd image (i * mnist_side + j)).
(** perception_brightness, cifar.hpp 68-72: r * 0.21 + g * 0.72 * b * 0.07, in units of
    1/10000 and without rounding; the conversion of a value above 255.99.. to uint8_t is
    undefined. The sum is never within 1e-4 of 256, so rounding does not change the range test. *)
Definition brightness (r g b : Z) : res Z :=
  let v := ((2100 * r + 504 * g * b) / 10000)%Z in
  _ <- require (v <? 256)%Z ;; Ok v.
(** CifarImage::operator std::string, 151-181 *)
Definition cifar_text (image : list Z) : res chars :=
  image_text cifar_side (fun i j =>
    let offset := i * cifar_side in
    r <- rd image (offset + j) ;;
    g <- rd image (cifar_side * cifar_side + offset + j) ;;
    b <- rd image (2 * cifar_side * cifar_side + offset + j) ;;
    brightness r g b).
