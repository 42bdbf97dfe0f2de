import sys
# usage: addnotes.py < text with lines: ID|status|note ; and extra args = files to add to _CoqProject
files=sys.argv[1:]
p='/verif/rocq/_CoqProject';s=open(p).read().rstrip()
for f in files:
    l="theories/%s.v"%f
    if l not in s.split("\n"): s+="\n"+l
open(p,'w').write(s+"\n")
p='/verif/tools/notes.py';s=open(p).read().rstrip();assert s.endswith('}')
s=s[:-1]
for line in sys.stdin:
    line=line.strip()
    if not line: continue
    a,b,c=line.split('|',2)
    s+="  %r: (%r, %r),\n"%(a,b,c)
open(p,'w').write(s+"}\n")
