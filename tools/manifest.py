import json
C=[]
def c(p,st,th,note): C.append(dict(property=p,status=st,theorems=th,note=note))
exec(open('/verif/tools/claims.py').read())
json.dump({"claims":C},open('/verif/MANIFEST.json','w'),indent=1)
print(len(C))
