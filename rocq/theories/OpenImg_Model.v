(** Model of neuralcompression/data/_openimages_v6.py (OpenImagesV6), data/_div2k_dataset.py
    (DIV2KDataset) and projects/illm/open_images_datamodule.py (OpenImagesDataModule).

    Simplifications: text is ASCII; paths are strings, without pathlib's normalisation of "." and
    repeated slashes; images are their paths; loaders have no worker processes and no shuffling. *)
From Coq Require Import String Ascii ZArith List Bool Arith Lia.
From Verif Require Import Base ClicImg_Model.
Import ListNotations.
Open Scope string_scope.
Open Scope nat_scope.

(** _openimages_v6.py L14-117 (_INVALID_IMAGE_NAMES) *)
Definition invalid_image_names : list string :=
  [
   "0a866d6fd1ea9317"; "0df79dea97961a10"; "0efa17ee62d7caf9"; "14098132e2032aaf"; "193edd6c8ef39251";
   "1b564e7e54361fc2"; "24b77bff6bfd736c"; "39a876a07f18f837"; "3e260ed1bfd6509e"; "42a6df3ac3bf2d33";
   "4ce068dcc2ae3cc9"; "4ddbede0f1bdc602"; "50eb15613b100675"; "5ef177f1391765d3"; "61efc69916e8fa1e";
   "62a1bbca8a844225"; "62be906e5077bffa"; "646605f070b9883f"; "67b1dfe383f92dcf"; "6b1efb7bf49e27be";
   "73497cedb79d23a4"; "73f886b2ab2f5bd9"; "79bcae5f044a69fb"; "80d19062a39df158"; "83c0499d3e8fdb06";
   "8604fd077594d226"; "88161ed23f3379b4"; "895ef7a64e2858c1"; "91d66b5ddcb4f5a3"; "93fd5f0899065d78";
   "965b4dccff47fa5d"; "add170ca187afcd7"; "b6474a1a69bbbe49"; "b840cb6cca32d756"; "bcd2dfa3750ea055";
   "bebf5b2470a3955c"; "c18b0a385e0d8257"; "c5ad20115f79cc66"; "d1fdbbb705bb6016"; "d66352405f0385e3";
   "da1267b1196c8e79"; "ea15e23587edc562"; "eb8fab01d113dc3b"; "ec1a5e86a7d570c8"; "ec40941f60fbc594";
   "ecd25d7e90027c89"; "fb6574ec2e4e4bb8"; "33bbb7e2c767c773"; "9f860289e93d11fc"; "c977b4fd166e908b";
   "c2ffdc701a70e9a1"; "0248001275c71dc8"; "0364f5c6f964e1bc"; "0b76aafb249fc5b7"; "0c616f7947875acc";
   "16f199c310a1b7ac"; "235f7b87aa67461e"; "23e5990f0ed037a7"; "24d76ef27ba41f38"; "2e58f4a0d31e9be1";
   "2e7f9bc07e7bd4d8"; "2ff06b2f1ba0cc51"; "31968a4b02d9981b"; "36a83a554ef21da2"; "39af00cf7013519c";
   "3dfceab39d674168"; "439e232d7531027e"; "48212be4d45c5c1a"; "59847832eb83aaa1"; "5cbd57fd38a45852";
   "61db1e0c8174b3c3"; "659c55b26b92c5ab"; "6a5bdb01a0f99891"; "6bba1f25a1ee68e8"; "723a41acf8804460";
   "752cf54040dc80d7"; "7996ed8f1f35ce83"; "8075443714f28729"; "8b1f16626a5bbc82"; "8d7efba30eeca417";
   "97e9a3774468eb35"; "a7adff7aede82670"; "adcd441c940a8832"; "ae811292e322abe1"; "b146377ed3af77ec";
   "b8543f9c563bad6a"; "b9511a25bf6aa6d9"; "b9e6642fc707d78f"; "bf8844bdf5fcded4"; "c100f8bda2d56a6d";
   "c2ffdc701a70e9a1"; "c57eb29e74376b15"; "c977b4fd166e908b"; "cbcdc984e6f0d41d"; "cf81b04e3baf23d8";
   "d45776312fb97ff6"; "d5af6277007b6001"; "daa2fa027bd35189"; "de2ea1f167b03dab"; "dfc42b77003e55d3";
   "e752e43deb95c51c"; "f0508277b718aa55"].

Definition newline : ascii := Ascii.ascii_of_nat 10.
Definition return_char : ascii := Ascii.ascii_of_nat 13.
(** open(path, "r"): \r\n and \r become \n *)
Fixpoint universal (s : string) : string :=
  match s with
  | EmptyString => EmptyString
  | String c r =>
      if Ascii.eqb c return_char then
        match r with
        | String d r' => if Ascii.eqb d newline then String newline (universal r') else String newline (universal r)
        | EmptyString => String newline EmptyString
        end
      else String c (universal r)
  end.
(** f.readlines(): the lines with their newline *)
Fixpoint readlines (s : string) : list string :=
  match s with
  | EmptyString => []
  | String c r =>
      if Ascii.eqb c newline then String c EmptyString :: readlines r
      else match readlines r with
           | [] => [String c EmptyString]
           | l :: ls => String c l :: ls
           end
  end.
(** str.isspace for ASCII: \t \n \v \f \r, 0x1c to 0x1f, space *)
Definition is_space (c : ascii) : bool :=
  let n := nat_of_ascii c in (Nat.leb 9 n && Nat.leb n 13) || (Nat.leb 28 n && Nat.leb n 32).
(** str.rstrip() *)
Fixpoint rstrip (s : string) : string :=
  match s with
  | EmptyString => EmptyString
  | String c r => match rstrip r with
                  | EmptyString => if is_space c then EmptyString else String c EmptyString
                  | r' => String c r'
                  end
  end.
(** str.rfind(c), None for -1 *)
Fixpoint rfind (c : ascii) (s : string) : option nat :=
  match s with
  | EmptyString => None
  | String d r => match rfind c r with
                  | Some i => Some (S i)
                  | None => if Ascii.eqb d c then Some 0 else None
                  end
  end.
(** genericpath._splitext: the part before the extension; leading dots of the last component do not count *)
Fixpoint all_dots (s : string) : bool :=
  match s with EmptyString => true | String c r => Ascii.eqb c "." && all_dots r end.
Definition splitext_root (p : string) : string :=
  match rfind "." p with
  | None => p
  | Some dot =>
      let start := match rfind "/" p with None => 0 | Some i => S i end in
      if Nat.ltb dot start then p
      else if all_dots (substring start (dot - start) p) then p else substring 0 dot p
  end.
(** _openimages_v6.py L120-129 (_load_indices), from the content of the file *)
Definition load_indices (content : string) (split : string) : list string :=
  let indices := sort (readlines (universal content)) in
  let image_names := map (fun el => splitext_root (rstrip el)) indices in
  if String.eqb split "train" then filter (fun el => negb (existsb (String.eqb el) invalid_image_names)) image_names
  else image_names.

(** pathlib's root / name: an absolute name replaces the root *)
Definition join (root name : string) : string :=
  match name with
  | String "/" _ => name
  | _ => root ++ "/" ++ name
  end.
Record dataset := mkD { d_root : string; d_split : string; d_transform : option nat; d_indices : list string }.
(** _openimages_v6.py L158-178 (__init__); [files] gives the content of the files that exist *)
Definition split_map (s : string) : string := if String.eqb s "val" then "validation" else s.
Definition open_images (files : string -> option string) (root split : string) (image_list_file : option string) (transform : option nat) : res dataset :=
  if negb (existsb (String.eqb split) ["train"; "val"; "test"]) then Raise ValueError
  else
    let sub := split_map split in
    let path := match image_list_file with None => join root ("list-" ++ sub ++ "-files.txt") | Some p => p end in
    match files path with
    | None => Raise FileNotFoundError
    | Some content => Ok (mkD root sub transform (load_indices content split))
    end.
(** list[index] of Python *)
Definition py_index {A} (l : list A) (i : Z) : res A :=
  let j := if Z.ltb i 0 then (i + Z.of_nat (length l))%Z else i in
  if Z.ltb j 0 then Raise IndexError
  else match nth_error l (Z.to_nat j) with Some a => Ok a | None => Raise IndexError end.
(** _openimages_v6.py L180-182 (_get_image_path) *)
Definition get_image_path (d : dataset) (i : Z) : res string :=
  do fname <- py_index (d_indices d) i; Ok (join (join (d_root d) (d_split d)) (fname ++ ".jpg")).
(** L193-194 (__len__) *)
Definition len (d : dataset) : nat := length (d_indices d).

(** _div2k_dataset.py L36-50 (DIV2KDataset.__init__): [entries] lists the names in a directory *)
Definition div2k (entries : string -> list string) (root split : string) : res (list string) :=
  if negb (String.eqb split "val") then Raise ValueError
  else Ok (map (fun n => join (join root "DIV2K_valid_HR") n) (sort (filter (ends_with ".png") (entries (join root "DIV2K_valid_HR"))))).

(** open_images_datamodule.py L20-54 (__init__): transforms are numbers; [default_train] and
    [default_val] are those made by default_transforms.py *)
Record module := mkM { m_root : string; m_batch : Z; m_val_batch : option Z; m_workers : nat; m_train_t : nat; m_val_t : nat }.
Section Defaults.
Variables default_train default_val : list Z -> nat.
Definition datamodule (root : string) (batch_size : Z) (workers : nat) (image_size : option (list Z))
    (train_t val_t : option nat) (val_batch_size : option Z) : res module :=
  do tt_ <- match train_t with
            | None => match image_size with None => Raise ValueError | Some s => Ok (default_train s) end
            | Some t => Ok t
            end;
  do vt <- match val_t with
           | None => match image_size with None => Raise ValueError | Some s => Ok (default_val s) end
           | Some t => Ok t
           end;
  Ok (mkM root batch_size val_batch_size workers tt_ vt).
End Defaults.
(** open_images_datamodule.py L56-67 (setup): train and evaluation data set *)
Definition setup (files : string -> option string) (m : module) : res (dataset * dataset) :=
  do tr <- open_images files (m_root m) "train" None (Some (m_train_t m));
  do ev <- open_images files (m_root m) "val" None (Some (m_val_t m));
  Ok (tr, ev).
(** torch's DataLoader (2.0 on): the arguments it checks; then one batch after the other *)
Fixpoint batches {A} (fuel : nat) (b : nat) (l : list A) : list (list A) :=
  match fuel, l with
  | S k, _ :: _ => firstn b l :: batches k b (skipn b l)
  | _, _ => []
  end.
Definition data_loader (d : dataset) (batch_size : Z) (workers : nat) (prefetch : option nat) : res (list (list string)) :=
  if Nat.eqb workers 0 && match prefetch with Some _ => true | None => false end then Raise ValueError
  else if Z.leb batch_size 0 then Raise ValueError
  else do items <- mapM (fun i => get_image_path d (Z.of_nat i)) (seq 0 (len d));
       Ok (batches (length items) (Z.to_nat batch_size) items).
(** L69-77, without the shuffling *)
Definition train_dataloader (m : module) (ds : dataset * dataset) : res (list (list string)) :=
  data_loader (fst ds) (m_batch m) (m_workers m) (Some 2).
(** L79-90 *)
Definition val_dataloader (m : module) (ds : dataset * dataset) : res (list (list string)) :=
  data_loader (snd ds) (match m_val_batch m with Some b => b | None => m_batch m end) (m_workers m) None.
(** L92-93 *)
Definition test_dataloader := val_dataloader.
