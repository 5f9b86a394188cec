(** client/client.go: query strings, request paths, next-page links and paged listings.  The parts of net/url and path that
    the client uses are modelled from their documentation. *)
From Coq Require Import String ZArith List Lia Bool.
From Verif Require Import GoBase Json Regex StyleFile_Model.
Import ListNotations.
Open Scope Z_scope.

(** ** net/url query strings *)

Definition unreserved (c : Z) : bool := alnum c || (c =? 45) || (c =? 95) || (c =? 46) || (c =? 126).
Definition hex_digit (n : Z) : Z := if n <? 10 then 48 + n else 55 + n.
(** url.QueryEscape *)
Definition QueryEscape (s : gstr) : gstr :=
  flat_map (fun c => if unreserved c then [c] else if c =? 32 then [43] else [37; hex_digit (c / 16); hex_digit (c mod 16)]) s.
Definition unhex (c : Z) : option Z :=
  if (48 <=? c) && (c <=? 57) then Some (c - 48) else if (97 <=? c) && (c <=? 102) then Some (c - 87) else if (65 <=? c) && (c <=? 70) then Some (c - 55) else None.
(** url.QueryUnescape; None is the error for a percent sign without two hexadecimal digits *)
Fixpoint QueryUnescape (s : gstr) : option gstr :=
  match s with
  | [] => Some []
  | c :: t =>
      if c =? 37 then
        match t with
        | a :: b :: u => match unhex a, unhex b, QueryUnescape u with Some x, Some y, Some r => Some (x * 16 + y :: r) | _, _, _ => None end
        | _ => None
        end
      else match QueryUnescape t with Some r => Some ((if c =? 43 then 32 else c) :: r) | None => None end
  end.
(** strings.Split at a separator byte; strings.Join *)
Fixpoint split_on (sep : Z) (s : gstr) : list gstr :=
  match s with
  | [] => [[]]
  | c :: t => if c =? sep then [] :: split_on sep t else match split_on sep t with p :: ps => (c :: p) :: ps | [] => [[c]] end
  end.
Fixpoint join_with (sep : gstr) (l : list gstr) : gstr := match l with [] => [] | [a] => a | a :: l' => a ++ sep ++ join_with sep l' end.
(** strings.Cut at a byte *)
Fixpoint cut_at (sep : Z) (s : gstr) : gstr * gstr := match s with [] => ([], []) | c :: t => if c =? sep then ([], t) else let '(a, b) := cut_at sep t in (c :: a, b) end.

(** url.Values: keys with their values in order; Go's map order of the keys is not observable below because Encode sorts *)
Definition Values := list (gstr * list gstr).
Fixpoint vadd (q : Values) (k v : gstr) : Values :=
  match q with [] => [(k, [v])] | (k', vs) :: q' => if seqb k k' then (k', vs ++ [v]) :: q' else (k', vs) :: vadd q' k v end.
Fixpoint vget (q : Values) (k : gstr) : list gstr := match q with [] => [] | (k', vs) :: q' => if seqb k k' then vs else vget q' k end.
(** url.ParseQuery of Go 1.17 and later; URL.Query drops the error, so the pieces in error are skipped *)
Definition parse_piece (q : Values) (p : gstr) : Values :=
  if existsb (Z.eqb 59) p then q
  else match p with
       | [] => q
       | _ => let '(k, v) := cut_at 61 p in
              match QueryUnescape k, QueryUnescape v with Some k', Some v' => vadd q k' v' | _, _ => q end
       end.
Definition ParseQuery (raw : gstr) : Values := fold_left parse_piece (split_on 38 raw) [].
(** Byte-wise order of Go strings *)
Fixpoint sleb (a b : gstr) : bool :=
  match a, b with [], _ => true | _ :: _, [] => false | x :: a', y :: b' => (x <? y) || ((x =? y) && sleb a' b') end.
Fixpoint insert_key (e : gstr * list gstr) (q : Values) : Values :=
  match q with [] => [e] | f :: q' => if sleb (fst e) (fst f) then e :: q else f :: insert_key e q' end.
Definition sort_keys (q : Values) : Values := fold_right insert_key [] q.
(** Values.Encode *)
Definition Encode (q : Values) : gstr :=
  join_with (B "&") (flat_map (fun e => map (fun v => QueryEscape (fst e) ++ B "=" ++ QueryEscape v) (snd e)) (sort_keys q)).

(** A URL: everything up to the question mark, with the path not yet escaped, and the raw query *)
Record url := mkURL { uBase : gstr; uRawQuery : gstr }.
(** client/client.go:62-67 *)
Definition addAuthentication (token : gstr) (u : url) : url := mkURL (uBase u) (Encode (vadd (ParseQuery (uRawQuery u)) (B "access_token") token)).

(** ** Paths *)

(** path.Clean of a relative path, by segments: "" and "." vanish, ".." removes the segment before it *)
Fixpoint clean_segs (l : list gstr) (acc : list gstr) : list gstr :=
  match l with
  | [] => rev acc
  | p :: l' =>
      if seqb p [] || seqb p (B ".") then clean_segs l' acc
      else if seqb p (B "..") then
        match acc with
        | top :: acc' => if seqb top (B "..") then clean_segs l' (p :: acc) else clean_segs l' acc'
        | [] => clean_segs l' [p]
        end
      else clean_segs l' (p :: acc)
  end.
Definition Clean (s : gstr) : gstr := match clean_segs (split_on 47 s) [] with [] => B "." | l => join_with (B "/") l end.
(** path.Join; only for elements whose first is not rooted, as here *)
Definition Join (l : list gstr) : gstr := match filter (fun e => negb (seqb e [])) l with [] => [] | l' => Clean (join_with (B "/") l') end.
(** client/client.go:87, 121-124, 142 and 179: paths of the requests; the base URL has an empty path *)
Definition listPath (kind username : gstr) : gstr := Join [[]; kind; username].
Definition stylePath (username id : gstr) (draft : bool) : gstr :=
  let p := Join [[]; B "styles/v1/"; username; id] in if draft then Join [p; B "draft"] else p.
Definition tileJSONPath (ids : list gstr) : gstr := Join [[]; B "v4"; join_with (B ",") ids] ++ B ".json".

(** ** Paged listings *)

(** The regular expression of client/client.go:70: a less-than sign, a group of any bytes except line feeds, a greater-than sign *)
Definition nextRegex : re := seqs [Chr (Z.eqb 60); Grp 1 (Star (fun c => negb (c =? 10))); Chr (Z.eqb 62)].
(** strings.Contains *)
Fixpoint prefixb (p s : gstr) : bool := match p, s with [], _ => true | x :: p', y :: s' => (x =? y) && prefixb p' s' | _, _ => false end.
Fixpoint contains (s p : gstr) : bool := prefixb p s || match s with [] => false | _ :: t => contains t p end.

Section Listing.
(** url.Parse of an absolute URL, as it is used for the links *)
Context (Parse : gstr -> option url).
(** client/client.go:69-83: indexing the nil result of FindStringSubmatch panics *)
Definition nextPageURL (link : gstr) : out (option url) :=
  if contains link (B "next") then
    match search nextRegex link with
    | None => Crash
    | Some c => Val (Parse (group 1 c))
    end
  else Val None.

Context {A : Type}.
(** The server: response to the n-th request, the decoded page and the Link header ("" without one), or None for any failure
    of the request or of decoding *)
Context (serve : nat -> url -> option (list A * gstr)) (token : gstr).
Inductive listing := Listed (l : list A) | Failed | Panics | Running.
(** client/client.go:99-117 and 158-176; [n] requests were made before *)
Fixpoint pages (fuel : nat) (n : nat) (requestURL : option url) (all : list A) : listing :=
  match requestURL with
  | None => Listed all
  | Some u =>
      match fuel with
      | O => Running
      | S fuel' =>
          match serve n (addAuthentication token u) with
          | None => Failed
          | Some (page, link) =>
              match nextPageURL link with
              | Val next => pages fuel' (S n) next (all ++ page)
              | _ => Panics
              end
          end
      end
  end.
(** client/client.go:85-116 ListStyles *)
Definition base (path : gstr) : gstr := B "https://api.mapbox.com/" ++ path.
Definition ListStyles (fuel : nat) (username : gstr) (draft : bool) : listing :=
  let q := vadd (vadd [] (B "draft") (if draft then B "true" else B "false")) (B "fresh") (B "true") in
  pages fuel 0 (Some (mkURL (base (listPath (B "styles/v1/") username)) (Encode q))) [].
(** client/client.go:136-172 ListTilesets; the parameters that are given *)
Definition ListTilesets (fuel : nat) (username : gstr) (type visibility sortby : option gstr) (limit : option Z) : listing :=
  let add q k o := match o with Some v => vadd q k v | None => q end in
  let q := add (add (add (add [] (B "type") type) (B "visibility") visibility) (B "sortby") sortby) (B "limit") (option_map FormatInt limit) in
  pages fuel 0 (Some (mkURL (base (listPath (B "tilesets/v1/") username)) (Encode q))) [].
End Listing.
