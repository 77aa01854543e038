"""Embed the text of /repo/src/openscm_twolayermodel/_version.py in Coq.

Writes rocq/theories/VersionFile.v: the lines before and after the three keyword
lines (26-28), so that the text of any archive of the tree can be assembled.
"""
SRC = "/repo/src/openscm_twolayermodel/_version.py"
text = open(SRC, "rb").read().decode("ascii")
assert text.endswith("\n") and "\r" not in text
lines = text.split("\n")[:-1]
assert lines[25] == '    git_refnames = "$Format:%d$"'
assert lines[26] == '    git_full = "$Format:%H$"'
assert lines[27] == '    git_date = "$Format:%ci$"'


def coq(ls):
    return ";\n".join('    "' + x.replace('"', '""') + '"' for x in ls)


with open("rocq/theories/VersionFile.v", "w") as f:
    f.write(
        """(** Text of src/openscm_twolayermodel/_version.py, generated from /repo by
    tools/gen_version_file.py.  The three lines that [git archive] rewrites
    (26-28) are left out: see [long_version_py] in Package.v. *)
From Coq Require Import List String.
Import ListNotations.
Local Open Scope string_scope.

(** _version.py:1-25. *)
Definition version_py_before : list string :=
  [
%s
  ].

(** _version.py:29-%d. *)
Definition version_py_after : list string :=
  [
%s
  ].
"""
        % (coq(lines[:25]), len(lines), coq(lines[28:]))
    )
