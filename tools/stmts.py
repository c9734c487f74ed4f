import sys,re
for f in sys.argv[1:]:
    s=open(f).read()
    s=re.sub(r'Proof\.(.*?)(Qed|Defined)\.','',s,flags=re.S)
    print('=====',f); print(s)
