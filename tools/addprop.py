import sys,json
def add(files,props,rows,notes):
    cp='/verif/rocq/_CoqProject'
    s=open(cp).read().rstrip('\n')+'\n'
    for f in files: s+=f"theories/{f}.v\n"
    open(cp,'w').write(s)
    pp='/verif/tools/props.py'
    t=open(pp).read()
    t=t.replace("with open('/verif/properties",props+"with open('/verif/properties",1)
    open(pp,'w').write(t)
    p='/verif/DESIGN.md'
    t=open(p).read()
    t=t.replace("\nThe trusted base is",rows+"\nThe trusted base is",1)
    open(p,'w').write(t)
    n='/verif/tools/notes.py'
    t=open(n).read().rstrip()
    assert t.endswith('}')
    open(n,'w').write(t[:-1]+notes+'}\n')
