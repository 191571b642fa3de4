(** * Model of version/version.go and of the version check in cmd/cmd.go. *)
From Verif Require Import GoBase.
Local Open Scope Z_scope.

(** version/version.go:16-43 Parse. [None] is the error return (-1,-1,-1,err). *)
Definition Parse (s : bytes) : option (Z * Z * Z) :=
  match split_byte "."%char s with
  | [t0; t1; t2] =>
      match atoi t0 with
      | None => None
      | Some major =>
          match atoi t1 with
          | None => None
          | Some minor =>
              match atoi t2 with
              | None => None
              | Some patch =>
                  if (major <? 0) || (minor <? 0) || (patch <? 0) then None
                  else Some (major, minor, patch)
              end
          end
      end
  | _ => None
  end.

(** version/version.go:47-66 Later. [None] is a returned error. *)
Definition Later (s1 s2 : bytes) : option bool :=
  match Parse s1 with
  | None => None
  | Some (major1, minor1, patch1) =>
      match Parse s2 with
      | None => None
      | Some (major2, minor2, patch2) =>
          Some (if major1 =? major2 then
                  if minor1 =? minor2 then patch1 >? patch2 else minor1 >? minor2
                else major1 >? major2)
      end
  end.

(** version/version.go:12 *)
Definition SourceVersion : bytes := lit "1.0.4".

(** cmd/cmd.go:149-163, the Version clause of GlobalConfig.validate, with the source version as a
    parameter [src] (the code uses version.SourceVersion and ignores its parse error, in which case Parse
    returned -1,-1,-1).  [true] = validation goes on, [false] = error return. *)
Definition validateVersion (src config : bytes) : bool :=
  match Parse config with
  | None => false
  | Some (major, minor, patch) =>
      let '(smajor, sminor, spatch) :=
        match Parse src with Some t => t | None => (-1, -1, -1) end in
      if ((smajor =? 0) || (major =? 0)) &&
         (negb (major =? smajor) || negb (minor =? sminor) || negb (patch =? spatch))
      then false
      else if ((smajor =? 1) && (major =? 1)) && ((minor >? sminor) || (patch >? spatch))
      then false
      else true
  end.
