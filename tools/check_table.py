import re,base64,zlib
s=open('/repo/package/github.com/btcsuite/btcd/btcec/v1/secp256k1.go').read()
d=re.search(r'secp256k1BytePoints = "([^"]*)"',s).group(1)
b=zlib.decompress(base64.b64decode(d))
P=2**256-2**32-977
import struct
def inv(a): return pow(a,P-2,P)
def add(p,q):
    if p is None: return q
    if q is None: return p
    if p[0]==q[0]:
        if (p[1]+q[1])%P==0: return None
        l=3*p[0]*p[0]*inv(2*p[1])%P
    else: l=(q[1]-p[1])*inv(q[0]-p[0])%P
    x=(l*l-p[0]-q[0])%P
    return x,(l*(p[0]-x)-p[1])%P
G=(0x79BE667EF9DCBBAC55A06295CE870B07029BFCDB2DCE28D959F2815B16F81798,0x483ADA7726A3C4655DA4FBFC0E1108A8FD17B448A68554199C47D08FFB10D4B8)
print(len(b),32*256*3*10*4)
w=struct.unpack('<%dI'%(len(b)//4),b)
def fv(o): return sum(w[o+i]<<(26*i) for i in range(10))
ok=0;bad=0;o=0;pts=[G]
for i in range(255): pts.append(add(pts[-1],pts[-1]))
for j in range(32):
    base=pts[8*(31-j)]
    p=None
    for i in range(256):
        x,y,zz=fv(o)%P,fv(o+10)%P,fv(o+20)%P;o+=30
        if i==0: g=(x,y) if True else None; 
        e=p
        if e is None: r=(zz==0 or (x,y)==(0,0)); 
        else: r=(x*inv(zz*zz)%P,y*inv(zz**3)%P)==e
        ok+=r;bad+=not r
        if i==0 and j<1: print(x,y,zz)
        p=add(p,base)
print(ok,bad)
